(* The meshes of both implementations. *)
From Verif Require Import Base RBase Geom LinAlg Transform MarchingTables Marching MarchingSpec MarchingProofs MarchingProofs2 MarchingProofs3 MarchingProofs4 MarchingProofs5.
From Coq Require Import Lra.
Local Open Scope nat_scope.

(* ---- orientation ---- *)
Definition zpos (p : point) : Z * Z * Z := let '(x, y, z) := p in (Z.of_nat x, Z.of_nat y, Z.of_nat z).
Definition zturn (ax : axis) (h : nat) (a b : nat) (low : point) : Z :=
  let '(ax1, ay1, az1) := zpos (near (loc a)) in let '(ax2, ay2, az2) := zpos (far (loc a)) in
  let '(bx1, by1, bz1) := zpos (near (loc b)) in let '(bx2, by2, bz2) := zpos (far (loc b)) in
  let '(lx, ly, lz) := zpos low in
  let dx := (bx1 + bx2 - ax1 - ax2)%Z in let dy := (by1 + by2 - ay1 - ay2)%Z in let dz := (bz1 + bz2 - az1 - az2)%Z in
  let ux := (2 * lx - ax1 - ax2)%Z in let uy := (2 * ly - ay1 - ay2)%Z in let uz := (2 * lz - az1 - az2)%Z in
  let s := if h =? 0 then (-1)%Z else 1%Z in
  match ax with AxX => s * (dy * uz - dz * uy) | AxY => s * (dz * ux - dx * uz) | AxZ => s * (dx * uy - dy * ux) end%Z.
Definition llow (bs : list bool) (a : nat) : point := if bit_at bs (near (loc a)) then near (loc a) else far (loc a).
Definition orient_check (bs : list bool) : bool :=
  forallb (fun s => forallb (fun fc => negb (shares (fst s) (snd s) fc) || (zturn (fst fc) (snd fc) (fst s) (snd s) (llow bs (fst s)) <? 0)%Z) faces6) (lsides bs).
Lemma orient_checked : forallb orient_check (bools 8) = true. Proof. vm_compute. reflexivity. Qed.
Lemma orient_fact bs a b ax h : length bs = 8 -> In (a, b) (lsides bs) -> a < 12 -> onface ax h a = true -> onface ax h b = true -> (zturn ax h a b (llow bs a) < 0)%Z.
Proof.
  intros Hb Hs Ha F F'. pose proof (check8 _ orient_checked bs Hb) as C. unfold orient_check in C. rewrite forallb_forall in C. specialize (C _ Hs). rewrite forallb_forall in C. specialize (C (ax, h) (faces6_in ax h (onface_small _ _ _ Ha F))). unfold shares in C. cbn [fst snd] in C. rewrite F, F' in C. cbn [negb andb orb] in C. now apply Z.ltb_lt.
Qed.
Local Open Scope R_scope.
(* moving the two ends inside their links does not change the side *)
Lemma turn_sign ax h a b t t' lo : (a < 12)%nat -> (b < 12)%nat -> a <> b -> onface ax h a = true -> onface ax h b = true -> 0 < t < 1 -> 0 < t' < 1 -> (lo = near (loc a) \/ lo = far (loc a)) -> (zturn ax h a b lo < 0)%Z ->
  dot3 (cross3 (scal3 (if (h =? 0)%nat then -1 else 1) (unit ax)) (sub3 (along (loc b) t') (along (loc a) t))) (sub3 (pos_of lo) (along (loc a) t)) < 0.
Proof.
  intros Ha Hb Hab F F' Ht Ht' Hlo. rewrite !along_pos.
  destruct h as [|[|h]]; [| |exfalso; apply (onface_small _ _ _ Ha) in F; lia].
  all: destruct ax; each12 a Ha; try discriminate F; each12 b Hb; try discriminate F'; try (exfalso; apply Hab; reflexivity); destruct Hlo as [-> | ->]; intros Hz; try discriminate Hz; clear - Ht Ht'; unfold dot3, cross3, sub3, scal3, unit, pos_of; cbn -[Rmult Rplus Rminus Ropp]; nra.
Qed.
Definition vadd (c : point) (v : vec3) : vec3 := add3 (pos_of c) v.
Lemma along_glob c a t : along (glob c a) t = vadd c (along (loc a) t).
Proof.
  rewrite !along_pos. unfold glob, near. cbn [fst snd]. destruct c as [[x y] z], (loc a) as [[[u v] w] []]; cbn [padd fst snd]; unfold vadd, add3; cbn [pos_of x3 y3 z3]; rewrite !plus_INR; f_equal; ring.
Qed.
Lemma pos_padd c p : pos_of (padd c p) = vadd c (pos_of p).
Proof. destruct c as [[x y] z], p as [[u v] w]. unfold vadd, add3. cbn. now rewrite !plus_INR. Qed.
Lemma sub_vadd c u v : sub3 (vadd c u) (vadd c v) = sub3 u v.
Proof. unfold vadd, sub3, add3. cbn [x3 y3 z3]. f_equal; ring. Qed.
Lemma oriented_ok D H W f iso c a b : all_clear D H W f iso -> In c (cubes D H W) -> In (a, b) (lsides (bits f iso c)) -> oriented_in c f iso (glob c a) (glob c b).
Proof.
  intros HC Hc Hs. destruct (lsides_in f iso c a b Hs) as (Ha & Hb & Hab). intros ax k P P'. apply in_plane_face in P as (h & -> & F). apply in_plane_face in P' as (h' & E & F'). assert (h' = h) by lia. subst h'. clear E.
  assert (X : forall i, In i (row (bits f iso c)) -> 0 < ratio f iso (glob c i) < 1).
  { intros i Hi. apply row_facts in Hi as [Hi Hx]; [|apply bits_len]. assert (K : crossing D H W f iso (glob c i)) by (apply crossb_ok; assumption). pose proof (ratio_clear D H W f iso _ K (HC _ K)). pose proof EPS_pos. lra. }
  assert (I : In a (row (bits f iso c)) /\ In b (row (bits f iso c))).
  { apply in_flat_map in Hs as (t & Ht & Hs). apply sides3_in in Hs as (S1 & S2). split; eapply chunk3_in; eauto. }
  destruct I as (Ia & Ib). unfold cut. fold (ratio f iso (glob c a)). fold (ratio f iso (glob c b)). rewrite !along_glob, sub_vadd.
  assert (EL : low_end f iso (glob c a) = padd c (llow (bits f iso c) a)).
  { unfold low_end, llow. destruct (loc_small a Ha) as [S1 S2]. rewrite bit_at_ok by exact S1. destruct (glob_ends c a) as [-> ->]. unfold below. now destruct (Rltb (at_point f (padd c (near (loc a)))) iso). }
  rewrite EL, pos_padd, sub_vadd. replace (outward c ax (coord ax c + h)) with (scal3 (if (h =? 0)%nat then -1 else 1) (unit ax)).
  - apply turn_sign; auto; [unfold llow; destruct (bit_at _ _); auto|]. now apply orient_fact; [apply bits_len|..].
  - unfold outward. replace (coord ax c + h =? coord ax c)%nat with (h =? 0)%nat; [reflexivity|]. destruct (Nat.eqb_spec h 0), (Nat.eqb_spec (coord ax c + h) (coord ax c)); try reflexivity; lia.
Qed.
Local Open Scope nat_scope.

(* ---- from links to indices ---- *)
Lemma sides_idx E T : flat_map tri_sides (map (idx3 leqb E) T) = map (map2 (fun e => index_of leqb e E)) (flat_map sides3 T).
Proof. induction T as [|[[a b] c] T IH]; [reflexivity|]. cbn [map flat_map]. rewrite map_app, IH. reflexivity. Qed.
Lemma nodup_map_inj {A B} (g : A -> B) l : (forall x y, In x l -> In y l -> g x = g y -> x = y) -> NoDup l -> NoDup (map g l).
Proof.
  induction l as [|a l IH]; intros Hi Hn; [constructor|]. apply NoDup_cons_iff in Hn as [Ha Hn]. cbn. constructor.
  - intros C. apply in_map_iff in C as (x & E & Hx). assert (x = a) by (apply Hi; [now right|now left|exact E]). now subst.
  - apply IH; [intros; apply Hi; auto; now right|exact Hn].
Qed.
Lemma sides3_list3 {A} (T : list (A * A * A)) e e' : In (e, e') (flat_map sides3 T) -> In e (flat_map list3 T) /\ In e' (flat_map list3 T).
Proof. intros Hs. apply in_flat_map in Hs as (t & Ht & Hs). apply sides3_in in Hs as (H1 & H2). split; apply in_flat_map; eauto. Qed.
Lemma list3_side {A} (t : A * A * A) e : In e (list3 t) -> exists s, In s (sides3 t) /\ fst s = e.
Proof. destruct t as [[a b] c]. cbn. intros [<-|[<-|[<-|[]]]]; [exists (a, b)|exists (b, c)|exists (c, a)]; auto. Qed.
Section Out.
Variables (T : list (link * link * link)).
Let E := nub leqb (flat_map list3 T).
Let faces := map (idx3 leqb E) T.
Lemma E_in e : In e E <-> In e (flat_map list3 T). Proof. apply (nub_in leqb leqb_ok). Qed.
Lemma E_nodup : NoDup E. Proof. apply (nub_nodup leqb leqb_ok). Qed.
Lemma face_links i j k : In (i, j, k) faces -> exists a b c, In (a, b, c) T /\ nth_error E i = Some a /\ nth_error E j = Some b /\ nth_error E k = Some c.
Proof.
  intros Hf. apply in_map_iff in Hf as ([[a b] c] & Eq & Ht). unfold idx3, map3 in Eq. injection Eq as <- <- <-. exists a, b, c. split; [exact Ht|]. repeat split; apply (index_nth leqb leqb_ok), E_in, in_flat_map; exists (a, b, c); cbn; auto.
Qed.
Lemma all_used i : i < length E -> exists s, In s (flat_map tri_sides faces) /\ fst s = i.
Proof.
  intros Hi. destruct (nth_error E i) as [e|] eqn:Ee; [|apply nth_error_None in Ee; lia]. pose proof (nth_error_In _ _ Ee) as He. pose proof (proj1 (E_in e) He) as He'. apply in_flat_map in He' as (t & Ht & Hl). apply list3_side in Hl as (s & Hs & <-). unfold faces. rewrite sides_idx. exists (map2 (fun e => index_of leqb e E) s). split; [apply in_map, in_flat_map; eauto|]. cbn.
  pose proof (index_nth leqb leqb_ok _ _ He) as En. apply (proj1 (NoDup_nth_error E) E_nodup); [now apply (index_lt leqb leqb_ok)|congruence].
Qed.
Lemma side_iff i j a b : nth_error E i = Some a -> nth_error E j = Some b -> (In (i, j) (flat_map tri_sides faces) <-> In (a, b) (flat_map sides3 T)).
Proof.
  intros Hi Hj. unfold faces. rewrite sides_idx. split.
  - intros Hs. apply in_map_iff in Hs as ([a' b'] & Eq & Hs). unfold map2 in Eq. cbn [fst snd] in Eq. injection Eq as <- <-. destruct (sides3_list3 _ _ _ Hs) as (Ha & Hb). apply E_in in Ha, Hb. apply (index_nth leqb leqb_ok) in Ha, Hb. congruence.
  - intros Hs. apply in_map_iff. exists (a, b). split; [|exact Hs]. unfold map2. cbn. pose proof (nth_error_In _ _ Hi) as Ha. pose proof (nth_error_In _ _ Hj) as Hb. f_equal; apply (proj1 (NoDup_nth_error E) E_nodup); try (apply (index_lt leqb leqb_ok); assumption); rewrite (index_nth leqb leqb_ok) by assumption; congruence.
Qed.
Lemma sides_nodup : NoDup (flat_map sides3 T) -> NoDup (flat_map tri_sides faces).
Proof.
  intros Hn. unfold faces. rewrite sides_idx. apply nodup_map_inj; [|exact Hn]. intros [a b] [a' b'] H1 H2 Eq. unfold map2 in Eq. cbn [fst snd] in Eq. pose proof (f_equal fst Eq) as E1. pose proof (f_equal snd Eq) as E2. cbn [fst snd] in E1, E2. apply sides3_list3 in H1 as (A & B). apply sides3_list3 in H2 as (A' & B'). apply E_in in A, B, A', B'. apply (index_inj leqb leqb_ok) in E1, E2; try assumption. now subst.
Qed.
End Out.

Theorem full_mesh D H W f iso : 2 <= D -> 2 <= H -> 2 <= W -> all_clear D H W f iso ->
  let T := full D H W f iso in let E := nub leqb (flat_map list3 T) in level_mesh D H W f iso (map (pos f iso) E) (map (idx3 leqb E) T).
Proof.
  intros HD HH HW HC T E. exists E. assert (HE : forall e, In e E <-> crossing D H W f iso e) by (intros e; unfold E, T; rewrite E_in, full_links; now apply all_links_cross). refine (conj _ (conj HE (conj _ (conj _ (conj _ (conj _ _)))))).
  - apply E_nodup.
  - apply map_ext_in. intros e He. apply HE in He. unfold pos. apply (snapped_clear D H W); auto.
  - intros i j k Hf. apply face_links in Hf as (a & b & c & Ht & E1 & E2 & E3). exists a, b, c. refine (conj E1 (conj E2 (conj E3 _))).
    apply in_flat_map in Ht as (r & Hr & Ht). apply in_map_iff in Hr as (cl & <- & Hc).
    unfold links_of in Ht. rewrite chunk3_map in Ht. apply in_map_iff in Ht as ([[p q] r] & Eq & Ht). unfold map3 in Eq. pose proof (f_equal (fun t => fst (fst t)) Eq) as Q1. pose proof (f_equal (fun t => snd (fst t)) Eq) as Q2. pose proof (f_equal snd Eq) as Q3. cbn [fst snd] in Q1, Q2, Q3. clear Eq. subst a b c.
    assert (L : forall s, In s (sides3 (p, q, r)) -> In s (lsides (bits f iso cl))) by (intros s Hs; apply in_flat_map; eauto).
    destruct (lsides_in f iso cl p q (L _ (or_introl eq_refl))) as (Lp & Lq & N1). destruct (lsides_in f iso cl q r (L _ (or_intror (or_introl eq_refl)))) as (_ & Lr & N2). destruct (lsides_in f iso cl r p (L _ (or_intror (or_intror (or_introl eq_refl))))) as (_ & _ & N3).
    refine (conj _ (conj _ (conj _ _))); [intros Eg; apply N1; eapply glob_inj; eauto|intros Eg; apply N2; eapply glob_inj; eauto|intros Eg; apply N3; eapply glob_inj; eauto|].
    exists cl. refine (conj _ (conj (glob_cell _ _ Lp) (conj (glob_cell _ _ Lq) (conj (glob_cell _ _ Lr) _)))); [intros ax; now apply coord_cube|].
    refine (conj _ (conj _ _)); apply (oriented_ok D H W); auto; apply L; cbn; auto.
  - intros i Hi. apply (all_used T). exact Hi.
  - apply sides_nodup. unfold T. rewrite full_sides. apply all_sides_nodup.
  - intros i j a b H0 H1 H2. pose proof (proj1 (side_iff T _ _ _ _ H1 H2) H0) as S1. pose proof (side_iff T _ _ _ _ H2 H1) as S2. unfold T in S1, S2. rewrite full_sides in S1, S2. pose proof (reverse_side D H W f iso a b S1) as RS. exact (iff_trans S2 RS).
Qed.
Theorem any_mesh D H W f iso differ (apart : vec3 -> vec3 -> Prop) : (forall p q, differ p q = true -> apart p q) ->
  partial_mesh D H W f iso apart (map (pos f iso) (used D H W f iso differ)) (map (idx3 leqb (used D H W f iso differ)) (tris D H W f iso differ)).
Proof.
  intros HA. exists (used D H W f iso differ). split; [apply (E_nodup (tris D H W f iso differ))|]. split; [|split; [reflexivity|split]].
  - intros e He. apply (E_in (tris D H W f iso differ)) in He. apply in_flat_map in He as (t & Ht & He). destruct (tris_in differ D H W f iso t Ht) as (_ & c & _ & K). now apply K.
  - intros i Hi. now apply (all_used (tris D H W f iso differ)).
  - intros i j k Hf. apply (face_links (tris D H W f iso differ)) in Hf as (a & b & c & Ht & E1 & E2 & E3). exists a, b, c. destruct (tris_in differ D H W f iso _ Ht) as (G & cl & _ & K). cbn in G. rewrite !andb_true_iff in G. destruct G as ((G1 & G2) & G3). repeat split; try assumption; try (apply HA; assumption). exists cl. repeat split; apply K; cbn; auto.
Qed.
