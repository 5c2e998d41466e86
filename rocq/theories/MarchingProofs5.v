(* The directed sides of the triangles of all cells. *)
From Verif Require Import Base RBase Geom MarchingTables Marching MarchingSpec MarchingProofs MarchingProofs2 MarchingProofs3 MarchingProofs4.
Local Open Scope nat_scope.

Definition sides3 {A} (t : A * A * A) : list (A * A) := let '(a, b, c) := t in [(a, b); (b, c); (c, a)].
Definition map2 {A B} (g : A -> B) (s : A * A) : B * B := (g (fst s), g (snd s)).
Lemma sides3_map {A B} (g : A -> B) t : sides3 (map3 g t) = map (map2 g) (sides3 t). Proof. now destruct t as [[a b] c]. Qed.
Lemma sides3_in {A} (t : A * A * A) s : In s (sides3 t) -> In (fst s) (list3 t) /\ In (snd s) (list3 t).
Proof. destruct t as [[a b] c]. cbn. intros [<-|[<-|[<-|[]]]]; cbn; auto. Qed.
Definition lsides (bs : list bool) : list (nat * nat) := flat_map sides3 (chunk3 (row bs)).
Definition axes := [AxX; AxY; AxZ].
Lemma axes_all a : In a axes. Proof. destruct a; cbn; auto. Qed.
Definition onface (ax : axis) (h a : nat) : bool := (coord ax (near (loc a)) =? h) && (coord ax (far (loc a)) =? h).
Definition faces6 : list (axis * nat) := flat_map (fun ax => [(ax, 0); (ax, 1)]) axes.
Definition shares (a b : nat) (fc : axis * nat) : bool := onface (fst fc) (snd fc) a && onface (fst fc) (snd fc) b.
Definition common (a b : nat) : bool := existsb (shares a b) faces6.
Definition memb (s : nat * nat) (l : list (nat * nat)) : bool := existsb (pair_eqb s) l.
Fixpoint nodup2 (l : list (nat * nat)) : bool := match l with [] => true | s :: l => negb (memb s l) && nodup2 l end.
Lemma pair_eqb_ok s s' : pair_eqb s s' = true <-> s = s'.
Proof. unfold pair_eqb. rewrite andb_true_iff, !Nat.eqb_eq. destruct s, s'; cbn. split; [intros [-> ->]; reflexivity|intros E; now injection E]. Qed.
Lemma memb_ok s l : memb s l = true <-> In s l.
Proof. unfold memb. rewrite existsb_exists. split; [intros (x & H & E); apply pair_eqb_ok in E; now subst|intros H; exists s; split; [exact H|now apply pair_eqb_ok]]. Qed.
Lemma nodup2_ok l : nodup2 l = true -> NoDup l.
Proof. induction l as [|s l IH]; cbn; [constructor|]. intros H. apply andb_true_iff in H as [H1 H2]. constructor; [|auto]. intros C. apply memb_ok in C. rewrite C in H1. discriminate. Qed.

(* the corner bits on one side of a cell, moved to its low side *)
Definition step (ax : axis) : nat := match ax with AxX => 1 | AxY => 2 | AxZ => 4 end.
Definition keep_low (ax : axis) (bs : list bool) : list bool := map (fun v => if coord ax (vcorner v) =? 0 then nth v bs false else false) (seq 0 8).
Definition move_down (ax : axis) (bs : list bool) : list bool := map (fun v => if coord ax (vcorner v) =? 0 then nth (v + step ax) bs false else false) (seq 0 8).
Definition up (ax : axis) (a : nat) : nat := match ax, a with
  | AxX, 3 => 1 | AxX, 7 => 5 | AxX, 8 => 9 | AxX, 11 => 10
  | AxY, 0 => 4 | AxY, 1 => 5 | AxY, 2 => 6 | AxY, 3 => 7
  | AxZ, 0 => 2 | AxZ, 4 => 6 | AxZ, 8 => 11 | AxZ, 9 => 10 | _, a => a end.
Definition flip {A} (s : A * A) : A * A := (snd s, fst s).
Definition low_edges (ax : axis) : list nat := filter (onface ax 0) (seq 0 12).
Definition side_check (bs : list bool) : bool :=
  nodup2 (lsides bs)
  && forallb (fun s => if common (fst s) (snd s) then negb (memb (flip s) (lsides bs)) else memb (flip s) (lsides bs)) (lsides bs)
  && forallb (fun ax => forallb (fun a => forallb (fun b =>
       eqb (memb (a, b) (lsides bs)) (memb (a, b) (lsides (keep_low ax bs)))
       && eqb (memb (up ax a, up ax b) (lsides bs)) (memb (b, a) (lsides (move_down ax bs)))) (low_edges ax)) (low_edges ax)) axes.
Lemma sides_checked : forallb side_check (bools 8) = true. Proof. vm_compute. reflexivity. Qed.
Definition face_check : bool :=
  forallb (fun a => forallb (fun b => (a =? b) || (length (filter (shares a b) faces6) <=? 1)) (seq 0 12)) (seq 0 12)
  && forallb (fun ax => forallb (fun a => onface ax 1 (up ax a) && (up ax a <? 12)) (low_edges ax) && forallb (fun a => negb (onface ax 1 a) || existsb (fun b => up ax b =? a) (low_edges ax)) (seq 0 12)) axes.
Lemma faces_checked : face_check = true. Proof. vm_compute. reflexivity. Qed.

Lemma low_in ax a : In a (low_edges ax) <-> a < 12 /\ onface ax 0 a = true.
Proof. unfold low_edges. rewrite filter_In, in_seq. intuition lia. Qed.
Lemma up_facts ax : (forall a, In a (low_edges ax) -> onface ax 1 (up ax a) = true /\ up ax a < 12) /\ (forall a, a < 12 -> onface ax 1 a = true -> exists b, In b (low_edges ax) /\ up ax b = a).
Proof.
  pose proof faces_checked as C. unfold face_check in C. apply andb_true_iff in C as [_ C]. rewrite forallb_forall in C. specialize (C ax (axes_all ax)). apply andb_true_iff in C as [C1 C2]. rewrite forallb_forall in C1, C2. split.
  - intros a Ha. apply C1, andb_true_iff in Ha as [H1 H2]. apply Nat.ltb_lt in H2. auto.
  - intros a Ha Hf. specialize (C2 a (lt12 a Ha)). rewrite Hf in C2. cbn in C2. apply existsb_exists in C2 as (b & Hb & E). apply Nat.eqb_eq in E. eauto.
Qed.
Lemma faces6_in ax h : h < 2 -> In (ax, h) faces6.
Proof. intros H. destruct h as [|[|]]; [destruct ax; cbn; tauto..|lia]. Qed.
Lemma face_unique a b ax h ax' h' : a < 12 -> b < 12 -> a <> b -> h < 2 -> h' < 2 -> onface ax h a = true -> onface ax h b = true -> onface ax' h' a = true -> onface ax' h' b = true -> (ax, h) = (ax', h').
Proof.
  intros Ha Hb Hab Hh Hh' A B A' B'. pose proof faces_checked as C. unfold face_check in C. apply andb_true_iff in C as [C _]. rewrite forallb_forall in C. specialize (C a (lt12 a Ha)). rewrite forallb_forall in C. specialize (C b (lt12 b Hb)). apply Nat.eqb_neq in Hab. rewrite Hab in C. cbn [orb] in C. apply Nat.leb_le in C.
  assert (I : In (ax, h) (filter (shares a b) faces6)) by (apply filter_In; split; [now apply faces6_in|unfold shares; cbn; now rewrite A, B]). assert (I' : In (ax', h') (filter (shares a b) faces6)) by (apply filter_In; split; [now apply faces6_in|unfold shares; cbn; now rewrite A', B']).
  destruct (filter (shares a b) faces6) as [|x [|y l]]; cbn in *; [easy| |lia]. destruct I as [<-|[]], I' as [<-|[]]. reflexivity.
Qed.
Lemma side_facts bs : length bs = 8 ->
  NoDup (lsides bs) /\
  (forall a b, In (a, b) (lsides bs) -> if common a b then ~ In (b, a) (lsides bs) else In (b, a) (lsides bs)) /\
  (forall ax a b, In a (low_edges ax) -> In b (low_edges ax) -> (In (a, b) (lsides bs) <-> In (a, b) (lsides (keep_low ax bs))) /\ (In (up ax a, up ax b) (lsides bs) <-> In (b, a) (lsides (move_down ax bs)))).
Proof.
  intros H. pose proof (check8 _ sides_checked bs H) as C. unfold side_check in C. rewrite !andb_true_iff in C. destruct C as ((C1 & C2) & C3). rewrite forallb_forall in C2, C3. split; [now apply nodup2_ok|]. split.
  - intros a b Hs. specialize (C2 _ Hs). unfold flip in C2. cbn [fst snd] in C2. destruct (common a b); [apply negb_true_iff in C2; intros C; apply memb_ok in C; congruence|now apply memb_ok].
  - intros ax a b Ha Hb. specialize (C3 ax (axes_all ax)). rewrite forallb_forall in C3. specialize (C3 a Ha). rewrite forallb_forall in C3. specialize (C3 b Hb). apply andb_true_iff in C3 as [E1 E2]. apply eqb_prop in E1, E2. rewrite <- !memb_ok, E1, E2. tauto.
Qed.

Lemma point_eq_dec (c c' : point) : {c = c'} + {c <> c'}. Proof. repeat decide equality. Qed.
Lemma coord_next ax c : coord ax (next ax c) = S (coord ax c). Proof. destruct c as [[x y] z], ax; reflexivity. Qed.
(* ---- neighbouring cells ---- *)
Lemma coord_padd ax c p : coord ax (padd c p) = coord ax c + coord ax p. Proof. destruct c as [[x y] z], p as [[u v] w], ax; reflexivity. Qed.
Lemma in_plane_face ax c a k : in_plane ax k (glob c a) <-> exists h, k = coord ax c + h /\ onface ax h a = true.
Proof.
  unfold in_plane, onface. destruct (glob_ends c a) as [-> ->]. rewrite !coord_padd. split.
  - intros (E1 & E2). exists (coord ax (near (loc a))). split; [lia|]. rewrite Nat.eqb_refl. apply Nat.eqb_eq. lia.
  - intros (h & -> & E). apply andb_true_iff in E as [E1 E2]. apply Nat.eqb_eq in E1, E2. lia.
Qed.
Lemma onface_small ax h a : a < 12 -> onface ax h a = true -> h < 2.
Proof. intros Ha E. apply andb_true_iff in E as [E _]. apply Nat.eqb_eq in E. destruct (loc_small a Ha) as [S _]. destruct (near (loc a)) as [[x y] z]. destruct ax; cbn in E; lia. Qed.
Lemma glob_next ax c a : In a (low_edges ax) -> glob (next ax c) a = glob c (up ax a).
Proof.
  intros Ha. apply low_in in Ha as [Ha Hf]. destruct c as [[x y] z]. destruct ax; each12 a Ha; try discriminate Hf; unfold glob; cbn; repeat (f_equal; try lia).
Qed.
Lemma bits_next f iso ax c : keep_low ax (bits f iso (next ax c)) = move_down ax (bits f iso c).
Proof.
  unfold keep_low, move_down. apply map_ext_in. intros v Hv. destruct (Nat.eqb_spec (coord ax (vcorner v)) 0) as [E|]; [|reflexivity]. destruct c as [[x y] z].
  cbn [seq In] in Hv. repeat (destruct Hv as [<-|Hv]; [destruct ax; cbn in E; try discriminate; cbn; repeat (f_equal; try lia)|]). destruct Hv.
Qed.
(* a pair of different links in two different cells lies in the square between them *)
Lemma same_link e e' x x' y y' z z' : 
  (forall ax, match ax with AxX => x | AxY => y | AxZ => z end <= coord ax (near e) /\ coord ax (far e) <= match ax with AxX => x' | AxY => y' | AxZ => z' end) ->
  (forall ax, match ax with AxX => x | AxY => y | AxZ => z end <= coord ax (near e') /\ coord ax (far e') <= match ax with AxX => x' | AxY => y' | AxZ => z' end) ->
  (x' <= x /\ y' <= y /\ z' <= S z \/ x' <= x /\ y' <= S y /\ z' <= z \/ x' <= S x /\ y' <= y /\ z' <= z) -> e = e'.
Proof.
  intros C C' K. pose proof (C AxX). pose proof (C AxY). pose proof (C AxZ). pose proof (C' AxX). pose proof (C' AxY). pose proof (C' AxZ). clear C C'. destruct e as [[[a b] c] ax], e' as [[[a' b'] c'] ax']. unfold near, far in *. destruct ax, ax'; cbn in *; try (exfalso; lia); f_equal; f_equal; try f_equal; lia.
Qed.
Lemma two_cells c c' e e' : in_cell c e -> in_cell c e' -> in_cell c' e -> in_cell c' e' -> e <> e' -> c <> c' ->
  exists ax, (c' = next ax c /\ in_plane ax (S (coord ax c)) e /\ in_plane ax (S (coord ax c)) e') \/ (c = next ax c' /\ in_plane ax (coord ax c) e /\ in_plane ax (coord ax c) e').
Proof.
  intros A B A' B' He Hc. destruct c as [[x y] z], c' as [[x' y'] z'].
  assert (M : forall ax : axis, coord ax (near e) <= coord ax (far e)) by (intros ax; destruct e as [[[u v] w] []], ax; cbn; lia). assert (M' : forall ax : axis, coord ax (near e') <= coord ax (far e')) by (intros ax; destruct e' as [[[u v] w] []], ax; cbn; lia).
  assert (S3 : ~ (max x x' >= S (min x x') /\ max y y' >= S (min y y') \/ max x x' >= S (min x x') /\ max z z' >= S (min z z') \/ max y y' >= S (min y y') /\ max z z' >= S (min z z'))).
  { intros K. apply He. apply (same_link e e' (max x x') (S (min x x')) (max y y') (S (min y y')) (max z z') (S (min z z'))).
    - intros ax. specialize (A ax). specialize (A' ax). destruct ax; cbn in *; lia.
    - intros ax. specialize (B ax). specialize (B' ax). destruct ax; cbn in *; lia.
    - lia. }
  assert (P : forall ax, in_plane ax (max (coord ax (x, y, z)) (coord ax (x', y', z'))) e /\ in_plane ax (max (coord ax (x, y, z)) (coord ax (x', y', z'))) e' \/ coord ax (x, y, z) = coord ax (x', y', z')).
  { intros ax. specialize (A ax). specialize (A' ax). specialize (B ax). specialize (B' ax). specialize (M ax). specialize (M' ax). unfold in_plane. destruct (Nat.eq_dec (coord ax (x, y, z)) (coord ax (x', y', z'))); [now right|left]. lia. }
  assert (Q : forall ax, coord ax (x', y', z') <= S (coord ax (x, y, z)) /\ coord ax (x, y, z) <= S (coord ax (x', y', z'))).
  { intros ax. specialize (A ax). specialize (A' ax). specialize (M ax). lia. }
  pose proof (Q AxX) as QX. pose proof (Q AxY) as QY. pose proof (Q AxZ) as QZ. cbn in QX, QY, QZ.
  destruct (P AxX) as [(P1 & P2)|E1].
  - cbn in P1, P2. destruct (Nat.eq_dec x x') as [E|N].
    + destruct (P AxY) as [(P1' & P2')|E2].
      * cbn in P1', P2'. destruct (Nat.eq_dec y y') as [E2|N2].
        -- destruct (P AxZ) as [(P3 & P4)|E3]; [|exfalso; apply Hc; cbn in E3; congruence]. cbn in P3, P4. destruct (Nat.eq_dec z z') as [E3|N3]; [exfalso; apply Hc; congruence|]. exists AxZ. destruct (Nat.lt_total z z') as [L|[L|L]]; [left|contradiction|right]; cbn; subst; (split; [repeat f_equal; lia|]); [replace (S z) with (max z z') by lia|replace z with (max z z') by lia]; auto.
        -- exists AxY. assert (z = z') by lia. destruct (Nat.lt_total y y') as [L|[L|L]]; [left|contradiction|right]; cbn; subst; (split; [repeat f_equal; lia|]); [replace (S y) with (max y y') by lia|replace y with (max y y') by lia]; auto.
      * cbn in E2. destruct (P AxZ) as [(P3 & P4)|E3]; [|exfalso; apply Hc; cbn in E3; congruence]. cbn in P3, P4. destruct (Nat.eq_dec z z') as [E3|N3]; [exfalso; apply Hc; congruence|]. exists AxZ. destruct (Nat.lt_total z z') as [L|[L|L]]; [left|contradiction|right]; cbn; subst; (split; [repeat f_equal; lia|]); [replace (S z) with (max z z') by lia|replace z with (max z z') by lia]; auto.
    + exists AxX. assert (y = y' /\ z = z') by lia. destruct (Nat.lt_total x x') as [L|[L|L]]; [left|contradiction|right]; cbn; (split; [repeat f_equal; lia|]); [replace (S x) with (max x x') by lia|replace x with (max x x') by lia]; auto.
  - cbn in E1. destruct (P AxY) as [(P1' & P2')|E2].
    + cbn in P1', P2'. destruct (Nat.eq_dec y y') as [E2|N2].
      * destruct (P AxZ) as [(P3 & P4)|E3]; [|exfalso; apply Hc; cbn in E3; congruence]. cbn in P3, P4. destruct (Nat.eq_dec z z') as [E3|N3]; [exfalso; apply Hc; congruence|]. exists AxZ. destruct (Nat.lt_total z z') as [L|[L|L]]; [left|contradiction|right]; cbn; subst; (split; [repeat f_equal; lia|]); [replace (S z) with (max z z') by lia|replace z with (max z z') by lia]; auto.
      * exists AxY. assert (z = z') by lia. destruct (Nat.lt_total y y') as [L|[L|L]]; [left|contradiction|right]; cbn; subst; (split; [repeat f_equal; lia|]); [replace (S y) with (max y y') by lia|replace y with (max y y') by lia]; auto.
    + cbn in E2. destruct (P AxZ) as [(P3 & P4)|E3]; [|exfalso; apply Hc; cbn in E3; congruence]. cbn in P3, P4. destruct (Nat.eq_dec z z') as [E3|N3]; [exfalso; apply Hc; congruence|]. exists AxZ. destruct (Nat.lt_total z z') as [L|[L|L]]; [left|contradiction|right]; cbn; subst; (split; [repeat f_equal; lia|]); [replace (S z) with (max z z') by lia|replace z with (max z z') by lia]; auto.
Qed.

Lemma cell_prev ax c e : in_cell (next ax c) e -> in_plane ax (S (coord ax c)) e -> in_cell c e.
Proof. intros A (P1 & P2) ax'. specialize (A ax'). destruct c as [[x y] z], ax, ax'; cbn in *; lia. Qed.

(* ---- all the sides ---- *)
Section Sides.
Variables (D H W : nat) (f : field) (iso : R).
Definition csides (c : point) : list (link * link) := map (map2 (glob c)) (lsides (bits f iso c)).
Definition all_sides : list (link * link) := flat_map csides (cubes D H W).
Lemma full_sides : flat_map sides3 (full D H W f iso) = all_sides.
Proof.
  unfold full, all_sides, all_rows. induction (cubes D H W) as [|c cs IH]; [reflexivity|]. cbn [map flat_map]. rewrite flat_map_app, IH. f_equal. unfold csides, lsides, links_of. rewrite chunk3_map. induction (chunk3 (row (bits f iso c))) as [|t l IHl]; [reflexivity|]. cbn [map flat_map]. rewrite IHl, map_app, sides3_map. reflexivity.
Qed.
Lemma lsides_in c a b : In (a, b) (lsides (bits f iso c)) -> a < 12 /\ b < 12 /\ a <> b.
Proof.
  intros Hs. apply in_flat_map in Hs as (t & Ht & Hs). pose proof (row_facts (bits f iso c) (bits_len f iso c)) as (_ & R1 & R2). pose proof (sides3_in t _ Hs) as (H1 & H2). cbn [fst snd] in H1, H2. repeat split.
  - eapply R1, chunk3_in; eauto.
  - eapply R1, chunk3_in; eauto.
  - pose proof (R2 t Ht) as N. destruct t as [[p q] r]. clear - Hs N. cbn in Hs, N. apply NoDup_cons_iff in N as [N1 N]. apply NoDup_cons_iff in N as [N2 _]. cbn in N1, N2. intros ->. destruct Hs as [E|[E|[E|[]]]]; injection E as -> ->; tauto.
Qed.
Lemma csides_in c e e' : In (e, e') (csides c) <-> exists a b, e = glob c a /\ e' = glob c b /\ In (a, b) (lsides (bits f iso c)).
Proof.
  unfold csides. rewrite in_map_iff. split; [intros ([a b] & E & Hi); injection E as <- <-; eauto|intros (a & b & -> & -> & Hi); now exists (a, b)].
Qed.
Lemma csides_cell c e e' : In (e, e') (csides c) -> in_cell c e /\ in_cell c e' /\ e <> e'.
Proof.
  intros Hs. apply csides_in in Hs as (a & b & -> & -> & Hs). apply lsides_in in Hs as (Ha & Hb & Hab). repeat split; try (apply glob_cell; assumption). intros E. apply Hab. eapply glob_inj; eauto.
Qed.
Lemma csides_local c a b : a < 12 -> b < 12 -> In (glob c a, glob c b) (csides c) <-> In (a, b) (lsides (bits f iso c)).
Proof.
  intros Ha Hb. rewrite csides_in. split; [|eauto]. intros (a' & b' & E1 & E2 & Hs). destruct (lsides_in c a' b' Hs) as (Ha' & Hb' & _). apply glob_inj in E1, E2; try assumption. now subst.
Qed.
(* across the square between a cell and the next one *)
Lemma across ax c e e' : in_plane ax (S (coord ax c)) e -> in_plane ax (S (coord ax c)) e' -> in_cell c e -> in_cell c e' -> (exists a b, a < 12 /\ b < 12 /\ e = glob c a /\ e' = glob c b) ->
  In (e, e') (csides c) <-> In (e', e) (csides (next ax c)).
Proof.
  intros P P' _ _ (a & b & Ha & Hb & -> & ->). apply in_plane_face in P as (h & E & F). assert (h = 1) by lia. subst h. apply in_plane_face in P' as (h & E' & F'). assert (h = 1) by lia. subst h.
  destruct (up_facts ax) as (_ & U). destruct (U a Ha F) as (a0 & A0 & <-). destruct (U b Hb F') as (b0 & B0 & <-). rewrite csides_local by assumption. rewrite <- !glob_next by assumption. pose proof (proj1 (low_in ax a0) A0) as [La _]. pose proof (proj1 (low_in ax b0) B0) as [Lb _]. rewrite csides_local by assumption.
  destruct (side_facts (bits f iso c) (bits_len f iso c)) as (_ & _ & S1). destruct (side_facts (bits f iso (next ax c)) (bits_len f iso _)) as (_ & _ & S2). rewrite (proj2 (S1 ax a0 b0 A0 B0)). rewrite (proj1 (S2 ax b0 a0 B0 A0)). now rewrite bits_next.
Qed.
Lemma csides_ex c e e' : In (e, e') (csides c) -> exists a b, a < 12 /\ b < 12 /\ e = glob c a /\ e' = glob c b.
Proof. intros Hs. apply csides_in in Hs as (a & b & -> & -> & Hs). apply lsides_in in Hs as (Ha & Hb & _). eauto 6. Qed.
Lemma shared_common c e e' ax k a b : in_plane ax k e -> in_plane ax k e' -> e = glob c a -> e' = glob c b -> a < 12 -> b < 12 -> common a b = true.
Proof.
  intros P P' -> -> Ha Hb. apply in_plane_face in P as (h & E & F). apply in_plane_face in P' as (h' & E' & F'). assert (h' = h) by lia. subst h'. apply existsb_exists. exists (ax, h). split; [apply faces6_in; eapply onface_small; eauto|]. unfold shares. cbn. now rewrite F, F'.
Qed.
(* a side and its reverse are not both in the list of one cell when they lie in one of its faces *)
Lemma flip_not c e e' ax k : In (e, e') (csides c) -> in_plane ax k e -> in_plane ax k e' -> ~ In (e', e) (csides c).
Proof.
  intros Hs P P' C. apply csides_in in Hs as (a & b & E1 & E2 & Hs). pose proof (lsides_in c a b Hs) as (Ha & Hb & _). pose proof (shared_common c e e' ax k a b P P' E1 E2 Ha Hb) as Hc. subst. apply csides_local in C; [|assumption..]. destruct (side_facts (bits f iso c) (bits_len f iso c)) as (_ & S1 & _). specialize (S1 a b Hs). rewrite Hc in S1. contradiction.
Qed.
Lemma owner_unique c c' e e' : In (e, e') (csides c) -> In (e, e') (csides c') -> c = c'.
Proof.
  intros H1 H2. destruct (csides_cell c e e' H1) as (A & B & He). destruct (csides_cell c' e e' H2) as (A' & B' & _).
  destruct (point_eq_dec c c') as [E|Hc]; [exact E|exfalso]. destruct (two_cells c c' e e' A B A' B' He Hc) as (ax & [(-> & P & P')|(-> & P & P')]).
  - apply (across ax c e e' P P' A B (csides_ex _ _ _ H1)) in H1. eapply flip_not; [exact H2|exact P|exact P'|exact H1].
  - rewrite coord_next in P, P'. apply (across ax c' e e' P P' A' B' (csides_ex _ _ _ H2)) in H2. eapply flip_not; [exact H1|exact P|exact P'|exact H2].
Qed.
Theorem all_sides_nodup : NoDup all_sides.
Proof.
  apply nodup_flat_map; [apply cubes_nodup| |].
  - intros c _. destruct (side_facts (bits f iso c) (bits_len f iso c)) as (N & _). unfold csides. assert (G : forall l, (forall s, In s l -> In s (lsides (bits f iso c))) -> NoDup l -> NoDup (map (map2 (glob c)) l)).
    { induction l as [|[a b] l IH]; intros Hl Hn; [constructor|]. apply NoDup_cons_iff in Hn as [Hn1 Hn]. cbn [map]. constructor; [|apply IH; [intros; apply Hl; now right|exact Hn]]. intros C. apply in_map_iff in C as ([a' b'] & E & C). unfold map2 in E. cbn [fst snd] in E. pose proof (f_equal fst E) as E1. pose proof (f_equal snd E) as E2. cbn [fst snd] in E1, E2. clear E. pose proof (lsides_in c a b (Hl _ (or_introl eq_refl))) as (Ha & Hb & _). pose proof (lsides_in c a' b' (Hl _ (or_intror C))) as (Ha' & Hb' & _). apply glob_inj in E1, E2; try assumption. now subst. }
    apply G; auto.
  - intros c c' [e e'] _ _ H1 H2. eapply owner_unique; eauto.
Qed.
Lemma next_in ax c : In c (cubes D H W) -> S (coord ax c) < size D H W ax - 1 -> In (next ax c) (cubes D H W).
Proof. intros Hc Hs. apply cubes_in in Hc. apply cubes_in. destruct c as [[x y] z], ax; cbn in *; lia. Qed.
Lemma prev_in ax c : In c (cubes D H W) -> coord ax c <> 0 -> exists c', In c' (cubes D H W) /\ c = next ax c'.
Proof.
  intros Hc Hs. apply cubes_in in Hc. destruct c as [[x y] z], ax; cbn in Hs; [exists (x - 1, y, z)|exists (x, y - 1, z)|exists (x, y, z - 1)]; (split; [apply cubes_in; lia|cbn; repeat f_equal; lia]).
Qed.
Lemma coord_cube ax c : In c (cubes D H W) -> S (coord ax c) < size D H W ax.
Proof. intros Hc. apply cubes_in in Hc. destruct c as [[x y] z], ax; cbn in *; lia. Qed.
Theorem reverse_side e e' : In (e, e') all_sides -> (In (e', e) all_sides <-> ~ on_border D H W e e').
Proof.
  intros Hs. apply in_flat_map in Hs as (c & Hc & Hs). destruct (csides_cell c e e' Hs) as (A & B & He). destruct (csides_ex c e e' Hs) as (a & b & Ha & Hb & E1 & E2). assert (Hab : a <> b) by (intros ->; apply He; congruence).
  assert (Hl : In (a, b) (lsides (bits f iso c))) by (apply csides_local; [assumption..|congruence]).
  split.
  - intros Hr (ax & k & Hk & P & P'). apply in_flat_map in Hr as (c' & Hc' & Hr). destruct (csides_cell c' e' e Hr) as (A' & B' & _).
    destruct (point_eq_dec c c') as [<-|Hcc]; [eapply flip_not; [exact Hs|exact P|exact P'|exact Hr]|].
    destruct (two_cells c c' e e' A B B' A' He Hcc) as (ax' & K).
    assert (U : forall k', in_plane ax' k' e -> in_plane ax' k' e' -> ax' = ax /\ k' = k).
    { intros k' Q Q'. subst e e'. apply in_plane_face in P as (h & -> & F). apply in_plane_face in P' as (h0 & X & F'). assert (h0 = h) by lia. subst h0. apply in_plane_face in Q as (h' & -> & G). apply in_plane_face in Q' as (h0 & X' & G'). assert (h0 = h') by lia. subst h0.
      pose proof (face_unique a b ax' h' ax h Ha Hb Hab (onface_small _ _ _ Ha G) (onface_small _ _ _ Ha F) G G' F F') as FU. injection FU as -> ->. auto. }
    destruct K as [(Ec & Q & Q')|(Ec & Q & Q')]; destruct (U _ Q Q') as (-> & <-).
    + pose proof (coord_cube ax _ Hc') as B1. rewrite Ec, coord_next in B1. lia.
    + pose proof (coord_cube ax _ Hc) as B1. rewrite Ec, coord_next in Hk. rewrite Ec, coord_next in B1. lia.
  - intros Hn. destruct (side_facts (bits f iso c) (bits_len f iso c)) as (_ & S1 & _). specialize (S1 a b Hl). destruct (common a b) eqn:Hcm.
    + apply existsb_exists in Hcm as ([ax h] & _ & Hsh). unfold shares in Hsh. cbn [fst snd] in Hsh. apply andb_true_iff in Hsh as [F F']. pose proof (onface_small _ _ _ Ha F) as Hh.
      assert (P : in_plane ax (coord ax c + h) e) by (subst e; apply in_plane_face; eauto). assert (P' : in_plane ax (coord ax c + h) e') by (subst e'; apply in_plane_face; eauto).
      destruct h as [|[|]]; [| |lia].
      * destruct (Nat.eq_dec (coord ax c) 0) as [E|N]; [exfalso; apply Hn; exists ax, (coord ax c + 0); split; [left; lia|auto]|]. destruct (prev_in ax c Hc N) as (c' & Hc' & ->). apply in_flat_map. exists c'. split; [exact Hc'|]. assert (E : coord ax (next ax c') + 0 = S (coord ax c')) by (destruct c' as [[x y] z], ax; cbn; lia). rewrite E in P, P'.
        pose proof (cell_prev ax c' e A P) as A'. pose proof (cell_prev ax c' e' B P') as B'.
        apply (across ax c' e' e P' P B' A').
        -- pose proof (proj2 (low_in ax a) (conj Ha F)) as FA. pose proof (proj2 (low_in ax b) (conj Hb F')) as FB. exists (up ax b), (up ax a). destruct (up_facts ax) as (U & _). subst e e'. rewrite <- !glob_next by assumption. repeat split; apply U; assumption.
        -- exact Hs.
      * destruct (Nat.eq_dec (S (coord ax c)) (size D H W ax - 1)) as [E|N]; [exfalso; apply Hn; exists ax, (coord ax c + 1); split; [right; lia|auto]|]. pose proof (coord_cube ax c Hc) as B1. assert (Hnx : In (next ax c) (cubes D H W)) by (apply next_in; [exact Hc|lia]). apply in_flat_map. exists (next ax c). split; [exact Hnx|]. replace (coord ax c + 1) with (S (coord ax c)) in P, P' by lia. apply (across ax c e e' P P' A B); [eauto 6|exact Hs].
    + apply in_flat_map. exists c. split; [exact Hc|]. subst e e'. now apply csides_local.
Qed.
End Sides.
