(* Clear cuts: no triangle is dropped. *)
From Verif Require Import Base RBase Geom MarchingTables Marching MarchingSpec MarchingProofs MarchingProofs2 MarchingProofs3.
From Coq Require Import Lra.
Local Open Scope R_scope.

Lemma EPS_pos : 0 < EPS. Proof. unfold EPS. lra. Qed.
Lemma EPS_small : EPS < / 2. Proof. unfold EPS. lra. Qed.
Lemma glob_cell c a : (a < 12)%nat -> in_cell c (glob c a).
Proof. intros Ha b. destruct c as [[x y] z]. each12 a Ha; destruct b; cbn; lia. Qed.
Lemma abs_ge a b : EPS <= b - a \/ EPS <= a - b -> EPS <= Rabs (a - b).
Proof. intros [H|H]; unfold Rabs; destruct (Rcase_abs (a - b)); pose proof EPS_pos; lra. Qed.
Lemma INR_apart m n : m <> n -> EPS <= Rabs (INR m - INR n).
Proof.
  intros H. apply abs_ge. pose proof EPS_small. destruct (Nat.lt_gt_cases m n) as [L _]. destruct (L H) as [C|C]; apply le_INR in C; rewrite S_INR in C; lra.
Qed.
Lemma INR_between m n t : (n = m \/ n = S m) -> EPS <= t <= 1 - EPS -> EPS <= Rabs (INR m + t - INR n).
Proof. intros [->| ->] H; apply abs_ge; rewrite ?S_INR; lra. Qed.
Lemma INR_between' m n t : (n = m \/ n = S m) -> EPS <= t <= 1 - EPS -> EPS <= Rabs (INR n - (INR m + t)).
Proof. intros [->| ->] H; apply abs_ge; rewrite ?S_INR; lra. Qed.
Lemma along_pos e t : along e t = let '(x, y, z) := near e in match snd e with AxX => V3 (INR x + t) (INR y) (INR z) | AxY => V3 (INR x) (INR y + t) (INR z) | AxZ => V3 (INR x) (INR y) (INR z + t) end.
Proof. destruct e as [[[x y] z] []]; unfold along, near, far; cbn [fst snd next pos_of]; unfold add3, scal3, sub3; cbn [x3 y3 z3]; rewrite S_INR; f_equal; ring. Qed.
Lemma or3 (a b c : bool) : a = true \/ b = true \/ c = true -> a || b || c = true.
Proof. destruct a, b, c; cbn; intuition. Qed.
Lemma leb_true a b : a <= b -> Rleb a b = true. Proof. intros H. destruct (Rleb_spec a b); [reflexivity|contradiction]. Qed.
Lemma separate c e e' t t' : in_cell c e -> in_cell c e' -> e <> e' -> EPS <= t <= 1 - EPS -> EPS <= t' <= 1 - EPS -> differ_cpp (along e t) (along e' t') = true.
Proof.
  intros C C' Hne Ht Ht'. rewrite !along_pos. destruct e as [[[x y] z] a], e' as [[[x' y'] z'] a'], c as [[cx cy] cz].
  pose proof (C AxX) as Cx. pose proof (C AxY) as Cy. pose proof (C AxZ) as Cz. pose proof (C' AxX) as Cx'. pose proof (C' AxY) as Cy'. pose proof (C' AxZ) as Cz'. clear C C'.
  unfold differ_cpp. apply or3. destruct a, a'; unfold near, far in *; cbn in *.
  - assert (x = x') by lia. destruct (Nat.eq_dec y y') as [->|Hy]; [destruct (Nat.eq_dec z z') as [->|Hz]; [exfalso; apply Hne; now subst|]|]; [right; right|right; left]; now apply leb_true, INR_apart.
  - left. apply leb_true, INR_between; [lia|exact Ht].
  - left. apply leb_true, INR_between; [lia|exact Ht].
  - left. apply leb_true, INR_between'; [lia|exact Ht'].
  - assert (y = y') by lia. destruct (Nat.eq_dec x x') as [->|Hx]; [destruct (Nat.eq_dec z z') as [->|Hz]; [exfalso; apply Hne; now subst|]|]; [right; right|left]; now apply leb_true, INR_apart.
  - right. left. apply leb_true, INR_between; [lia|exact Ht].
  - left. apply leb_true, INR_between'; [lia|exact Ht'].
  - right. left. apply leb_true, INR_between'; [lia|exact Ht'].
  - assert (z = z') by lia. destruct (Nat.eq_dec x x') as [->|Hx]; [destruct (Nat.eq_dec y y') as [->|Hy]; [exfalso; apply Hne; now subst|]|]; [right; left|left]; now apply leb_true, INR_apart.
Qed.
Lemma differ_stronger p q : differ_cpp p q = true -> differ_py p q = true.
Proof.
  unfold differ_cpp, differ_py. pose proof EPS_pos as He. intros H. rewrite negb_true_iff. destruct (Reqb_spec (x3 p) (x3 q)) as [E1|]; [|reflexivity]. destruct (Reqb_spec (y3 p) (y3 q)) as [E2|]; [|reflexivity]. destruct (Reqb_spec (z3 p) (z3 q)) as [E3|]; [|reflexivity]. exfalso. rewrite E1, E2, E3 in H. unfold Rminus in H. rewrite !Rplus_opp_r, !Rabs_R0 in H. destruct (Rleb_spec EPS 0); [lra|discriminate].
Qed.
(* a clear cut lies strictly inside its link *)
Definition ratio (f : field) (iso : R) (e : link) : R := (iso - at_point f (near e)) / (at_point f (far e) - at_point f (near e)).
Lemma ratio_between D H W f iso e : crossing D H W f iso e -> 0 <= ratio f iso e <= 1 /\ at_point f (far e) - at_point f (near e) <> 0.
Proof.
  intros (_ & _ & C). unfold ratio. set (a := at_point f (near e)) in *. set (b := at_point f (far e)) in *. assert (N : b - a <> 0) by (intros E; destruct C; lra). split; [|exact N].
  destruct C as [(C1 & C2)|(C1 & C2)].
  - assert (0 < b - a) by lra. split; [apply Rmult_le_reg_r with (b - a); [assumption|]; field_simplify; lra|apply Rmult_le_reg_r with (b - a); [assumption|]; field_simplify; lra].
  - assert (0 < a - b) by lra. split; (apply Rmult_le_reg_r with (a - b); [assumption|]); (replace ((iso - a) / (b - a) * (a - b)) with (a - iso) by (field; assumption)); lra.
Qed.
Lemma ratio_clear D H W f iso e : crossing D H W f iso e -> clear_cut f iso e -> EPS <= ratio f iso e <= 1 - EPS.
Proof.
  intros (_ & _ & C) (K1 & K2 & K3 & K4). unfold ratio. set (a := at_point f (near e)) in *. set (b := at_point f (far e)) in *. assert (N : b - a <> 0) by (intros E; destruct C; lra). pose proof EPS_pos.
  destruct C as [(C1 & C2)|(C1 & C2)].
  - rewrite (Rabs_pos_eq (b - a)) in K3, K4 by lra. rewrite (Rabs_pos_eq (iso - a)) in K3 by lra. rewrite (Rabs_left1 (iso - b)) in K4 by lra. assert (0 < b - a) by lra. split; (apply Rmult_le_reg_r with (b - a); [assumption|]); (replace ((iso - a) / (b - a) * (b - a)) with (iso - a) by (field; assumption)); lra.
  - rewrite (Rabs_left1 (b - a)) in K3, K4 by lra. rewrite (Rabs_left1 (iso - a)) in K3 by lra. rewrite (Rabs_pos_eq (iso - b)) in K4 by lra. assert (0 < a - b) by lra. split; (apply Rmult_le_reg_r with (a - b); [assumption|]); (replace ((iso - a) / (b - a) * (a - b)) with (a - iso) by (field; assumption)); lra.
Qed.
Lemma snapped_clear D H W f iso e : crossing D H W f iso e -> clear_cut f iso e -> snapped f iso e = cut f iso e.
Proof.
  intros (_ & _ & C) (K1 & K2 & _ & _). unfold snapped. set (a := at_point f (near e)) in *. set (b := at_point f (far e)) in *. destruct (Rltb_spec (Rabs (iso - a)) EPS); [lra|]. destruct (Rltb_spec (Rabs (iso - b)) EPS); [lra|]. destruct (Rltb_spec (Rabs (a - b)) EPS) as [A|]; [|reflexivity]. exfalso. clear n n0.
  destruct C as [(C1 & C2)|(C1 & C2)]; revert K1 K2 A; unfold Rabs; repeat match goal with |- context [Rcase_abs ?x] => destruct (Rcase_abs x) end; lra.
Qed.
Definition full (D H W : nat) (f : field) (iso : R) : list (link * link * link) := flat_map chunk3 (all_rows D H W f iso).
Lemma stored_all {A} (p : A -> bool) l : forallb p l = true -> take_while p l = l.
Proof. induction l as [|x l IH]; [reflexivity|]. cbn. intros H. apply andb_true_iff in H as [-> H]. now rewrite IH. Qed.
Lemma triple_good D H W f iso c t : all_clear D H W f iso -> In c (cubes D H W) -> In t (chunk3 (links_of f iso c)) -> good3 differ_cpp (pos f iso) t = true.
Proof.
  intros HC Hc Ht. unfold links_of in Ht. rewrite chunk3_map in Ht. apply in_map_iff in Ht as ([[p q] r] & <- & Ht). pose proof (row_facts (bits f iso c) (bits_len f iso c)) as (_ & R1 & R2). pose proof (R2 _ Ht) as ND. cbn in ND. apply NoDup_cons_iff in ND as [N1 ND]. apply NoDup_cons_iff in ND as [N2 _].
  assert (Hin : forall a, In a (list3 (p, q, r)) -> (a < 12)%nat /\ crossing D H W f iso (glob c a)).
  { intros a Ha. pose proof (chunk3_in _ _ _ Ht Ha) as Hr. apply R1 in Hr as [Hr1 Hr2]. split; [exact Hr1|]. now apply crossb_ok. }
  assert (S : forall a b, In a (list3 (p, q, r)) -> In b (list3 (p, q, r)) -> a <> b -> differ_cpp (pos f iso (glob c a)) (pos f iso (glob c b)) = true).
  { intros a b Ha Hb Hab. destruct (Hin a Ha) as [A1 A2]. destruct (Hin b Hb) as [B1 B2]. unfold pos. rewrite !(snapped_clear D H W) by auto. unfold cut. fold (ratio f iso (glob c a)). fold (ratio f iso (glob c b)). apply (separate c); try (apply glob_cell; assumption); try (apply (ratio_clear D H W); auto). intros E. apply Hab. eapply glob_inj; eauto. }
  cbn [map3 good3]. rewrite !S; try reflexivity; cbn; auto; intros ->; cbn in *; tauto.
Qed.
Lemma good_py t f iso : good3 differ_cpp (pos f iso) t = true -> good3 differ_py (pos f iso) t = true.
Proof. destruct t as [[a b] c]. cbn. rewrite !andb_true_iff. intros ((A & B) & C). repeat split; now apply differ_stronger. Qed.
Lemma tris_full D H W f iso : all_clear D H W f iso -> tris D H W f iso differ_cpp = full D H W f iso /\ tris D H W f iso differ_py = full D H W f iso.
Proof.
  intros HC. unfold tris, full, all_rows. rewrite !flat_map_concat_map, !map_map. split; f_equal; apply map_ext_in; intros c Hc; unfold stored; apply stored_all, forallb_forall; intros t Ht; [|apply good_py]; eapply triple_good; eauto.
Qed.
Lemma full_links D H W f iso : flat_map list3 (full D H W f iso) = concat (all_rows D H W f iso).
Proof.
  unfold full, all_rows. assert (G : forall cs, flat_map list3 (flat_map chunk3 (map (links_of f iso) cs)) = concat (map (links_of f iso) cs)).
  { induction cs as [|c cs IH]; [reflexivity|]. cbn [map flat_map concat]. rewrite flat_map_app, IH. f_equal. destruct (row_facts (bits f iso c) (bits_len f iso c)) as ((m & Em) & _). apply (chunk3_flat _ m). unfold links_of. now rewrite map_length. }
  apply G.
Qed.
Lemma all_links_cross D H W f iso e : (2 <= D)%nat -> (2 <= H)%nat -> (2 <= W)%nat -> In e (concat (all_rows D H W f iso)) <-> crossing D H W f iso e.
Proof.
  intros HD HH HW. rewrite in_concat. split.
  - intros (r & Hr & He). apply in_map_iff in Hr as (c & <- & Hc). eapply links_cross; eauto.
  - intros C. destruct (link_cell D H W e) as (c & a & Hc & Ha & ->); try assumption; [destruct C as (G1 & G2 & _); now split|]. exists (links_of f iso c). split; [apply in_map, Hc|]. now apply (links_all D H W).
Qed.
(* any volume: what the stored triangles are made of *)
Lemma tris_in differ D H W f iso t : In t (tris D H W f iso differ) -> good3 differ (pos f iso) t = true /\ exists c, In c (cubes D H W) /\ forall e, In e (list3 t) -> crossing D H W f iso e /\ in_cell c e.
Proof.
  intros Ht. apply in_flat_map in Ht as (r & Hr & Ht). apply in_map_iff in Hr as (c & <- & Hc). pose proof (take_while_in _ _ _ Ht) as (Ht1 & Ht2). split; [exact Ht2|]. exists c. split; [exact Hc|]. intros e He. pose proof (chunk3_in _ _ _ Ht1 He) as Hl. split; [eapply links_cross; eauto|]. apply in_map_iff in Hl as (a & <- & Ha). apply row_facts in Ha as [Ha _]; [|apply bits_len]. now apply glob_cell.
Qed.
