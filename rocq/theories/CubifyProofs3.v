(* cubify: surface, and removal of unused vertices. *)
From Coq Require Import Lra.
From Verif Require Import Base Packing PackingProofs RBase Geom FaceAreas MeshesSpec Meshes MeshesHistSpec MeshesProofs7 MeshesProofs8 Subdivide SubdivideProofs SubdivideProofs3 Cubify CubifySpec CubifyProofs CubifyProofs2.
Local Open Scope nat_scope.

Lemma nodup_flat {A B} (f : A -> list B) l : NoDup l -> (forall x, In x l -> NoDup (f x)) -> (forall x y z, In x l -> In y l -> In z (f x) -> In z (f y) -> x = y) -> NoDup (flat_map f l).
Proof.
  induction l as [|x l IH]; intros Hn Hf Hd; [constructor|]. inversion Hn as [|? ? Hx Hl]. subst. cbn [flat_map].
  assert (A1 := Hf x (or_introl eq_refl)). assert (A2 : NoDup (flat_map f l)) by (apply IH; [exact Hl| |]; intros; [apply Hf; right; assumption|eapply Hd; try right; eassumption]).
  assert (A3 : forall z, In z (f x) -> ~ In z (flat_map f l)).
  { intros z Hz Hz'. apply in_flat_map in Hz'. destruct Hz' as (y & Hy & Hzy). apply Hx. rewrite (Hd x y z); [exact Hy|left; reflexivity|right; exact Hy|exact Hz|exact Hzy]. }
  clear - A1 A2 A3. induction (f x) as [|z l' IH]; [exact A2|]. inversion A1 as [|? ? Hz Hl']. subst. cbn. constructor.
  - intros Hi. apply in_app_iff in Hi. destruct Hi as [Hi|Hi]; [contradiction|]. exact (A3 z (or_introl eq_refl) Hi).
  - apply IH; [exact Hl'|]. intros z' Hz'. apply A3. right. exact Hz'.
Qed.
Lemma pt_of_inj c c' : pt_of c = pt_of c' -> c = c'.
Proof. destruct c as ((h, w), d), c' as ((h', w'), d'). cbn. intros E. injection E as E1 E2 E3. apply Nat2Z.inj in E1, E2, E3. congruence. Qed.

Section Surface.
Variables (D H W : nat) (vox : nat -> nat -> nat -> nat -> R) (thresh : R) (n : nat).
Notation occn := (occ D H W vox thresh n).
Notation expn := (exp D H W vox thresh n).
Notation tris := (all_tris D H W vox thresh n).
Notation sides := (all_sides D H W vox thresh n).
Notation set_ := (set_voxel D H W (vox n) thresh).

Lemma occ_set p : occn p = true <-> set_ p.
Proof.
  destruct p as ((x, y), z). unfold occ, set_voxel. rewrite !andb_true_iff, !Z.leb_le, !Z.ltb_lt. destruct (Rleb_spec thresh (vox n (Z.to_nat z) (Z.to_nat y) (Z.to_nat x))); intuition (try lia; try discriminate; try contradiction).
Qed.
Lemma dir_in s : In (dir s) directions.
Proof. unfold directions. do 6 (destruct s as [|s]; [cbn; tauto|]). cbn. tauto. Qed.
Lemma dir_of s : In s directions -> exists k, k < 6 /\ dir k = s.
Proof.
  intros [<-|[<-|[<-|[<-|[<-|[<-|[]]]]]]]; [exists 4|exists 0|exists 1|exists 3|exists 5|exists 2]; (split; [lia|reflexivity]).
Qed.
Lemma dir_inj s s' : s < 6 -> s' < 6 -> dir s = dir s' -> s = s'.
Proof. intros A B. do 6 (destruct s as [|s]; [do 6 (destruct s' as [|s']; [cbn; intros E; congruence|]); lia|]). lia. Qed.
Lemma exp_exposed p k : expn p k = true <-> exposed set_ (p, dir k).
Proof.
  unfold exp, exposed. cbn [fst snd]. rewrite andb_true_iff, negb_true_iff, occ_set. rewrite <- not_true_iff_false, occ_set. pose proof (dir_in k). tauto.
Qed.
Lemma sides_in vs : In vs sides <-> exposed set_ vs.
Proof.
  unfold all_sides. rewrite in_flat_map. split.
  - intros (c & _ & Hi). apply in_map_iff in Hi. destruct Hi as (s & <- & Hs). apply filter_In in Hs. apply exp_exposed. apply Hs.
  - intros Hx. destruct vs as (p, s). pose proof Hx as (Hs & Ho & _). cbn [fst snd] in *. destruct (dir_of s Hs) as (k & Hk & <-). apply occ_set in Ho. apply occ_true in Ho. destruct Ho as (h & w & d & -> & A & B & C).
    exists (h, w, d). split; [apply grid_in; auto|]. apply in_map_iff. exists k. split; [reflexivity|]. apply filter_In. split; [apply in_seq; lia|]. apply exp_exposed. exact Hx.
Qed.
Lemma sides_nodup : NoDup sides.
Proof.
  apply nodup_flat; [apply grid_nodup| |].
  - intros c _. assert (F : NoDup (filter (expn (pt_of c)) (seq 0 6))) by (apply NoDup_filter, seq_NoDup).
    assert (B : forall s, In s (filter (expn (pt_of c)) (seq 0 6)) -> s < 6) by (intros s Hs; apply filter_In in Hs; destruct Hs as (Hs & _); apply in_seq in Hs; lia).
    revert F B. generalize (filter (expn (pt_of c)) (seq 0 6)) as l. induction l as [|s l IH]; intros F B; [constructor|]. inversion F. subst. cbn. constructor; [|apply IH; [assumption|intros; apply B; right; assumption]].
    intros Hi. apply in_map_iff in Hi. destruct Hi as (s' & E & Hs'). injection E as E. apply dir_inj in E; [subst; contradiction|apply B; right; exact Hs'|apply B; left; reflexivity].
  - intros c c' z _ _ Hz Hz'. apply in_map_iff in Hz, Hz'. destruct Hz as (s & <- & _). destruct Hz' as (s' & E & _). injection E as E _. symmetry. apply pt_of_inj. exact E.
Qed.
Lemma covers_side p s : s < 6 -> covers p (dir s) (tri_at p (2 * s)) (tri_at p (2 * s + 1)).
Proof.
  intros Hs. destruct p as ((x, y), z). assert (Hc : s = 0 \/ s = 1 \/ s = 2 \/ s = 3 \/ s = 4 \/ s = 5) by lia.
  destruct Hc as [->|[->|[->|[->|[->| ->]]]]]; unfold covers, tri_at, tri0; cbn [Nat.mul Nat.add nth cube_faces cube_verts dir plus corners app directed];
    (split; [repeat apply Forall_cons; try apply Forall_nil; cbn; unfold on_axis; lia|split; [cbn; f_equal; [f_equal|]; ring|split; [cbn; f_equal; [f_equal|]; ring|]]]).
  - exists (x + 0, y + 0, z + 1)%Z, (x + 0, y + 1, z + 0)%Z. cbn. tauto.
  - exists (x + 0, y + 1, z + 1)%Z, (x + 1, y + 1, z + 0)%Z. cbn. tauto.
  - exists (x + 1, y + 1, z + 0)%Z, (x + 0, y + 0, z + 0)%Z. cbn. tauto.
  - exists (x + 0, y + 0, z + 0)%Z, (x + 1, y + 0, z + 1)%Z. cbn. tauto.
  - exists (x + 1, y + 0, z + 1)%Z, (x + 1, y + 1, z + 0)%Z. cbn. tauto.
  - exists (x + 0, y + 0, z + 1)%Z, (x + 1, y + 1, z + 1)%Z. cbn. tauto.
Qed.
Lemma triangles_app S1 T1 S2 T2 : triangles S1 T1 -> triangles S2 T2 -> triangles (S1 ++ S2) (T1 ++ T2).
Proof. induction 1; intros; cbn; [assumption|]. constructor; auto. Qed.
Lemma tris_pairs p : tris_at D H W vox thresh n p = flat_map (fun s => [tri_at p (2 * s); tri_at p (2 * s + 1)]) (filter (expn p) (seq 0 6)).
Proof.
  unfold tris_at. cbn [seq filter side_of_face Nat.div2]. destruct (expn p 0), (expn p 1), (expn p 2), (expn p 3), (expn p 4), (expn p 5); reflexivity.
Qed.
Lemma tris_triangles : triangles sides tris.
Proof.
  unfold all_sides, all_tris. induction (grid H W D) as [|c l IH]; [constructor|]. cbn [flat_map]. apply triangles_app; [|exact IH]. rewrite tris_pairs.
  assert (B : forall s, In s (filter (expn (pt_of c)) (seq 0 6)) -> s < 6) by (intros s Hs; apply filter_In in Hs; destruct Hs as (Hs & _); apply in_seq in Hs; lia).
  revert B. generalize (filter (expn (pt_of c)) (seq 0 6)) as ks. induction ks as [|s ks IHk]; intros B; [constructor|]. cbn [map flat_map app]. constructor; [apply covers_side; apply B; left; reflexivity|]. apply IHk. intros; apply B; right; assumption.
Qed.
Theorem tris_surface : surface set_ sides tris.
Proof. split; [apply sides_nodup|]. split; [apply sides_in|apply tris_triangles]. Qed.

(* corners are points of the vertex grid *)
Lemma triangles_corners S T t : triangles S T -> In t T -> exists v s, In (v, s) S /\ Forall (on_side v s) (corners t).
Proof.
  induction 1 as [|v s S t1 t2 T Hc _ IH]; intros Hi; [contradiction|]. destruct Hc as (Hf & _). apply Forall_app in Hf. destruct Hf as (F1 & F2). destruct Hi as [<-|[<-|Hi]]; [exists v, s; split; [left; reflexivity|exact F1]|exists v, s; split; [left; reflexivity|exact F2]|].
  destruct (IH Hi) as (v' & s' & A & B). exists v', s'. split; [right; exact A|exact B].
Qed.
Lemma corner_point t c : In t tris -> In c (corners t) -> exists g, In g (grid (H + 1) (W + 1) (D + 1)) /\ c = pt_of g.
Proof.
  intros Ht Hc. destruct (triangles_corners _ _ t tris_triangles Ht) as (v & s & Hi & Hf). rewrite Forall_forall in Hf. specialize (Hf c Hc). apply sides_in in Hi. destruct Hi as (_ & Ho & _). cbn [fst] in Ho.
  destruct v as ((x, y), z), s as ((u, p), q), c as ((a, b), d). cbn in Ho, Hf. unfold on_axis in Hf. destruct Ho as (A1 & A2 & A3 & _), Hf as ((B1 & _) & (B2 & _) & (B3 & _)). clear - A1 A2 A3 B1 B2 B3. exists (Z.to_nat b, Z.to_nat a, Z.to_nat d). split; [apply grid_in; lia|]. cbn. f_equal; [f_equal|]; lia.
Qed.
End Surface.

(* ---- removing unused vertices ---- *)
Lemma keep_index {A} (l : list A) : forall idle i x acc c, length idle = length l -> Forall (fun v => v <= 1) idle -> nth_error l i = Some x -> nth_error idle i = Some 0 -> nth_error (cumsum_from acc idle) i = Some c ->
  acc <= c /\ c <= i + acc /\ nth_error (keep_used l idle) (i + acc - c) = Some x.
Proof.
  induction l as [|y l IH]; intros [|v idle] i x acc c L Hv Hx Hi Hc; cbn in L; try discriminate; [destruct i; discriminate|].
  apply Forall_cons_iff in Hv. destruct Hv as (Hv0 & Hv). destruct i as [|i]; cbn [nth_error] in Hx, Hi, Hc.
  - injection Hx as ->. injection Hi as ->. cbn [cumsum_from nth_error] in Hc. injection Hc as Hc. split; [lia|]. split; [lia|]. unfold keep_used. cbn [combine filter snd Nat.eqb map fst]. replace (0 + acc - c) with 0 by lia. reflexivity.
  - cbn [cumsum_from nth_error] in Hc. destruct (IH idle i x _ c ltac:(lia) Hv Hx Hi Hc) as (A1 & A2 & A3). unfold keep_used in *. cbn [combine filter snd].
    destruct v as [|[|v]]; [| |lia].
    + cbn [Nat.eqb map fst]. split; [lia|]. split; [lia|]. replace (S i + acc - c) with (S (i + (acc + 0) - c)) by lia. cbn [nth_error]. exact A3.
    + cbn [Nat.eqb]. split; [lia|]. split; [lia|]. replace (S i + acc - c) with (i + (acc + 1) - c) by lia. exact A3.
Qed.
Lemma keep_in {A} (l : list A) : forall idle x, length idle = length l -> (In x (keep_used l idle) <-> exists i, nth_error l i = Some x /\ nth_error idle i = Some 0).
Proof.
  induction l as [|y l IH]; intros [|v idle] x L; cbn in L; try discriminate.
  - split; [intros []|]. intros (i & E & _). destruct i; discriminate.
  - unfold keep_used in *. cbn [combine filter snd]. assert (L' : length idle = length l) by lia. specialize (IH idle x L'). split.
    + intros Hi. destruct v as [|v]; cbn [Nat.eqb map fst] in Hi.
      * destruct Hi as [<-|Hi]; [exists 0; split; reflexivity|]. apply IH in Hi. destruct Hi as (i & A1 & A2). exists (S i). split; assumption.
      * apply IH in Hi. destruct Hi as (i & A1 & A2). exists (S i). split; assumption.
    + intros (i & A1 & A2). destruct i as [|i]; cbn [nth_error] in A1, A2.
      * injection A1 as ->. injection A2 as ->. left. reflexivity.
      * assert (In x (map fst (filter (fun p => snd p =? 0) (combine l idle)))) by (apply IH; eauto). destruct v; [right|]; assumption.
Qed.
Lemma keep_map {A B} (f : A -> B) l idle : keep_used (map f l) idle = map f (keep_used l idle).
Proof. unfold keep_used. revert idle. induction l as [|x l IH]; intros [|v idle]; try reflexivity. cbn [map combine filter snd]. destruct (v =? 0); cbn [map fst]; rewrite IH; reflexivity. Qed.
Lemma keep_nodup {A} (l : list A) idle : NoDup l -> NoDup (keep_used l idle).
Proof.
  unfold keep_used. intros Hn. revert idle. induction Hn as [|x l Hx _ IH]; intros [|v idle]; try constructor. cbn [combine filter snd]. destruct (v =? 0); [|apply IH]. cbn [map fst]. constructor; [|apply IH].
  intros Hi. apply Hx. apply in_map_iff in Hi. destruct Hi as ((a, b) & E & Hi). cbn in E. subst a. apply filter_In in Hi. destruct Hi as (Hi & _). eapply in_combine_l. exact Hi.
Qed.
Lemma scatter_ok indices : forall flags, (forall i, In i indices -> (0 <= i < Z.of_nat (length flags))%Z) ->
  exists idle, scatter_zero flags indices = Ok idle /\ length idle = length flags /\
    (forall k, In (Z.of_nat k) indices -> nth_error idle k = Some 0) /\ (forall k, ~ In (Z.of_nat k) indices -> nth_error idle k = nth_error flags k).
Proof.
  induction indices as [|i indices IH]; intros flags Hi; [exists flags; split; [reflexivity|]; split; [reflexivity|]; split; [intros k []|reflexivity]|].
  pose proof (Hi i (or_introl eq_refl)) as Hr. assert (Hlt : Z.to_nat i < length flags) by lia.
  unfold scatter_zero. cbn [rfold]. replace (i <? 0)%Z with false by (symmetry; apply Z.ltb_ge; lia).
  destruct (upd_ok flags (Z.to_nat i) 0 Hlt) as (f' & E). rewrite E. cbn [rbind].
  pose proof (upd_length _ _ _ _ E) as L. destruct (IH f') as (idle & Ei & L2 & A1 & A2); [intros j Hj; rewrite L; apply Hi; right; exact Hj|].
  exists idle. split; [exact Ei|]. split; [congruence|]. split.
  - intros k [Hk|Hk]; [|apply A1; exact Hk]. destruct (in_dec Z.eq_dec (Z.of_nat k) indices) as [Y|Y]; [apply A1; exact Y|]. rewrite A2 by exact Y. replace k with (Z.to_nat i) by lia. eapply upd_same. exact E.
  - intros k Hk. cbn in Hk. rewrite A2 by tauto. eapply upd_other; [exact E|]. intros Hk'. apply Hk. left. lia.
Qed.
Lemma rmap_exists {A B} (f : A -> result B) (P : B -> A -> Prop) l : (forall x, In x l -> exists y, f x = Ok y /\ P y x) -> exists ys, rmap f l = Ok ys /\ Forall2 P ys l.
Proof.
  induction l as [|x l IH]; intros Hx; [exists []; split; [reflexivity|constructor]|]. destruct (Hx x (or_introl eq_refl)) as (y & E & Hy). destruct IH as (ys & E' & HF); [intros; apply Hx; right; assumption|]. exists (y :: ys). cbn [rmap]. rewrite E. cbn [rbind]. rewrite E'. split; [reflexivity|constructor; assumption].
Qed.

(* ---- closedness is kept ---- *)
Lemma times_cons {A} dec (t : A * A * A) T u v : times dec (t :: T) u v =
  length (filter (fun e => if dec (fst e) u then if dec (snd e) v then true else false else false) (directed t)) + times dec T u v.
Proof. unfold times. cbn [flat_map]. rewrite filter_app, app_length. reflexivity. Qed.
Lemma same_corner_eq P i c u a : NoDup P -> same_corner P i c -> same_corner P u a -> (i = u <-> c = a).
Proof.
  intros Hn (H1 & H2) (H3 & H4). split; [intros ->; congruence|]. intros ->. assert (Z.to_nat i = Z.to_nat u); [|lia]. apply (proj1 (NoDup_nth_error P) Hn); [apply nth_error_Some; congruence|congruence].
Qed.
Lemma times_transfer P fs T u v a b : NoDup P -> Forall2 (same_face P) fs T -> same_corner P u a -> same_corner P v b -> times Z.eq_dec fs u v = times pt_dec T a b.
Proof.
  intros Hn HF Hu Hv. induction HF as [|((i, j), k) ((x, y), z) fs T (S1 & S2 & S3) _ IH]; [reflexivity|]. unfold face, tri, times in *. cbn [flat_map]. rewrite !filter_app, !app_length, IH. f_equal. cbn [directed filter fst snd].
  pose proof (same_corner_eq P i x u a Hn S1 Hu). pose proof (same_corner_eq P i x v b Hn S1 Hv). pose proof (same_corner_eq P j y u a Hn S2 Hu). pose proof (same_corner_eq P j y v b Hn S2 Hv). pose proof (same_corner_eq P k z u a Hn S3 Hu). pose proof (same_corner_eq P k z v b Hn S3 Hv).
  destruct (Z.eq_dec i u), (pt_dec x a); try tauto; destruct (Z.eq_dec i v), (pt_dec x b); try tauto; destruct (Z.eq_dec j u), (pt_dec y a); try tauto; destruct (Z.eq_dec j v), (pt_dec y b); try tauto; destruct (Z.eq_dec k u), (pt_dec z a); try tauto; destruct (Z.eq_dec k v), (pt_dec z b); tauto || reflexivity.
Qed.
Lemma times_none P fs T u v : Forall2 (same_face P) fs T -> (forall a, ~ same_corner P u a) -> times Z.eq_dec fs u v = 0 /\ times Z.eq_dec fs v u = 0.
Proof.
  intros HF Hu. induction HF as [|((i, j), k) ((x, y), z) fs T (S1 & S2 & S3) _ (IH1 & IH2)]; [split; reflexivity|]. unfold face, tri, times in *. cbn [flat_map]. rewrite !filter_app, !app_length, IH1, IH2. cbn [directed filter fst snd].
  assert (i <> u) by (intros ->; eapply Hu; exact S1). assert (j <> u) by (intros ->; eapply Hu; exact S2). assert (k <> u) by (intros ->; eapply Hu; exact S3).
  destruct (Z.eq_dec i u), (Z.eq_dec j u), (Z.eq_dec k u); try contradiction. destruct (Z.eq_dec i v), (Z.eq_dec j v), (Z.eq_dec k v); split; reflexivity.
Qed.
Lemma corner_or_not P u : (exists a, same_corner P u a) \/ (forall a, ~ same_corner P u a).
Proof.
  unfold same_corner. destruct (Z_le_dec 0 u); [|right; intros a (K & _); lia]. destruct (nth_error P (Z.to_nat u)) as [a|] eqn:E; [left; exists a; auto|right; intros a (_ & K); discriminate].
Qed.
Lemma closed_transfer P fs T : NoDup P -> Forall2 (same_face P) fs T -> (forall a b, times pt_dec T a b = times pt_dec T b a) -> closed_oriented fs.
Proof.
  intros Hn HF Hc u v. destruct (corner_or_not P u) as [(a & Ha)|Hu]; [|destruct (times_none P fs T u v HF Hu); congruence].
  destruct (corner_or_not P v) as [(b & Hb)|Hv]; [|destruct (times_none P fs T v u HF Hv); congruence].
  rewrite (times_transfer P fs T u v a b Hn HF Ha Hb), (times_transfer P fs T v u b a Hn HF Hb Ha). apply Hc.
Qed.
