(* Neighbourhoods, covariances and translations. *)
From Verif Require Import Base RBase Geom LinAlg TopK Knn KnnSpec KnnProofs KnnProps.
From Verif Require Import Alignment AlignmentSpec AlignmentProofs AlignmentProofs2 AlignmentProofs3 AlignmentProofs4 Symeig Spectral SymeigSpec SymeigProofs.
From Verif Require Import Normals NormalsSpec.
From Coq Require Import Psatz.
Local Open Scope R_scope.

Lemma is_knn_ext d d' n K ds js : (forall j, (j < n)%nat -> d j = d' j) -> is_knn d n K ds js -> is_knn d' n K ds js.
Proof.
  intros E [A B C D F G H]. constructor; auto.
  - intros k L. destruct (D k L) as [V W]. split; [exact V|]. rewrite <- E; assumption.
  - intros j L N k L'. rewrite <- E by assumption. apply G; assumption.
Qed.

Lemma neighbours_ok sort K least num x : sorts sort -> (1 <= K <= num)%nat -> (num <= length x)%nat -> (least <= num)%nat ->
  exists nn, neighbours sort K least num x = Ok nn /\ length nn = length x /\
    forall j, (j < length x)%nat -> length (nth j nn []) = K /\
      ((j < num)%nat -> neighbourhood K (firstn num x) (nth j x vzero) (nth j nn [])).
Proof.
  intros Hs HK Hn Hl. unfold neighbours.
  destruct (knn_points_are_nearest sort 2 K true least (map coords x) (map coords x) num num Hs) as (rw & E & L & F);
    [right; reflexivity|lia|rewrite map_length; lia|rewrite map_length; lia|lia|].
  rewrite E. cbn [rbind]. rewrite map_length in L, F. cbn [Nat.eqb] in F.
  set (z := V3 0 0 0) in *.
  assert (G : forall j, (j < length x)%nat -> exists g,
    knn_gather z least K num x (snd (nth j rw ([], []))) = Ok g /\ length g = K /\
    ((j < num)%nat -> neighbourhood K (firstn num x) (nth j x vzero) g)).
  { intros j J. destruct (F j J) as (ds & js & R & Q). rewrite (nth_error_nth _ _ _ R). cbn [snd].
    destruct (Nat.ltb_spec j num) as [J'|J'].
    - destruct (knn_gather_neighbours vec3 z least K num x _ ds js Q Hl Hn ltac:(lia)) as (g & Eg & Lg & Ng & _).
      exists g. split; [exact Eg|]. split; [exact Lg|]. intros _. exists ds, js.
      assert (LJ : length js = K) by apply Q.
      assert (V : forall k, (k < K)%nat -> (nth k js 0 < num)%nat) by (intros k Hk; apply (knn_valid _ _ _ _ _ Q k); lia).
      split.
      + rewrite firstn_length, Nat.min_l by lia. revert Q. apply is_knn_ext. intros i Hi.
        rewrite (nth_map_lt coords x j vzero) by lia. rewrite (nth_map_lt coords x i vzero), dist_coords by lia.
        rewrite nth_firstn_lt by lia. reflexivity.
      + apply (list_nth_eq vzero); [rewrite map_length; lia|]. intros k Hk. rewrite (nth_map_lt _ js k 0%nat) by lia.
        specialize (Ng k ltac:(lia)). specialize (V k ltac:(lia)).
        rewrite nth_firstn_lt by lia. rewrite (nth_error_nth' x vzero) in Ng by lia. apply nth_error_nth with (d := vzero) in Ng. exact Ng.
    - destruct Q as [Q1 Q2].
      destruct (knn_gather_ok z least K num x js) as (g & Eg & Lg & _); try lia.
      + rewrite Q2. apply repeat_length.
      + intros k Hk. rewrite Q2, nth_repeat. lia.
      + exists g. split; [exact Eg|]. split; [exact Lg|]. lia. }
  set (val := fun r : list ext * list nat => match knn_gather z least K num x (snd r) with Ok q => q | Fail _ => [] end).
  assert (M : rmap (fun r => knn_gather z least K num x (snd r)) rw = Ok (map val rw)).
  { apply (rmap_nth _ _ _ ([], [])). intros i Hi. rewrite L in Hi. destruct (G i Hi) as (q & Q & _). unfold val. rewrite Q. reflexivity. }
  exists (map val rw). split; [exact M|]. split; [rewrite map_length; exact L|].
  intros j J. rewrite (nth_map_lt _ _ _ ([], [])) by lia. destruct (G j J) as (q & Q & P). unfold val. rewrite Q. exact P.
Qed.

(* ---- translations ---- *)
Definition tr (m p : vec3) : vec3 := sub3 p m.
Lemma sub_tr m p q : sub3 (tr m p) (tr m q) = sub3 p q.
Proof. unfold tr, sub3. m3r. apply V3_eq; ring. Qed.
Lemma sqdist_tr m p q : sqdist (tr m p) (tr m q) = sqdist p q.
Proof. unfold sqdist, tr, sub3. cbn [x3 y3 z3]. ring. Qed.
Lemma neighbourhood_tr K m pts p qs : (K <= length pts)%nat ->
  neighbourhood K (map (tr m) pts) (tr m p) qs ->
  exists qs', qs = map (tr m) qs' /\ neighbourhood K pts p qs'.
Proof.
  intros HK (ds & js & Q & ->). rewrite map_length in Q.
  assert (V : forall k, (k < K)%nat -> (nth k js 0 < length pts)%nat) by (intros k Hk; apply (knn_valid _ _ _ _ _ Q k); lia).
  assert (LJ : length js = K) by apply Q.
  exists (map (fun j => nth j pts vzero) js). split.
  - rewrite map_map. apply map_ext_in. intros j Hj. apply (In_nth _ _ 0%nat) in Hj. destruct Hj as (k & Hk & <-).
    rewrite (nth_map_lt _ pts _ vzero); [reflexivity|]. apply V. lia.
  - exists ds, js. split; [|reflexivity]. revert Q. apply is_knn_ext. intros j Hj. rewrite (nth_map_lt _ pts j vzero), sqdist_tr by exact Hj. reflexivity.
Qed.
Lemma vsum_tr m l : vsum3 (map (tr m) l) = sub3 (vsum3 l) (scal3 (INR (length l)) m).
Proof.
  induction l as [|p l IH]; [cbn; unfold sub3, scal3; cbn; apply V3_eq; ring|].
  cbn [map vsum3 fold_right length]. fold (vsum3 (map (tr m) l)) (vsum3 l). rewrite IH, S_INR. unfold tr.
  generalize (INR (length l)). intros n. generalize (vsum3 l). intros s. unfold sub3, add3, scal3. cbn [x3 y3 z3]. apply V3_eq; ring.
Qed.
Lemma covariance_tr K m l : length l = K -> (1 <= K)%nat -> covariance K (map (tr m) l) = covariance K l.
Proof.
  intros L HK. unfold covariance. rewrite vsum_tr, L.
  assert (P : INR K <> 0) by (apply not_0_INR; lia).
  replace (div3 (sub3 (vsum3 l) (scal3 (INR K) m)) (INR K)) with (tr m (div3 (vsum3 l) (INR K))).
  - rewrite map_map. f_equal. f_equal; apply map_ext; intros q; apply sub_tr.
  - generalize (vsum3 l). intros s. unfold tr, div3, sub3, scal3. cbn [x3 y3 z3]. apply V3_eq; field; exact P.
Qed.
Lemma disambiguate_tr K m p l v : disambiguate K (tr m p) (map (tr m) l) v = disambiguate K p l v.
Proof.
  unfold disambiguate. rewrite (map_map (tr m)). do 4 f_equal.
  rewrite (map_ext _ (fun q => sub3 q p)) by (intros; apply sub_tr). reflexivity.
Qed.
Lemma point_frame_tr eigh eps amax amin K d u m p l : length l = K -> (1 <= K)%nat ->
  point_frame eigh eps amax amin K d u (tr m p) (map (tr m) l) = point_frame eigh eps amax amin K d u p l.
Proof.
  intros L HK. unfold point_frame. rewrite covariance_tr by assumption.
  destruct (if u then _ else _) as [e [[v1 v2] v3]]. rewrite !disambiguate_tr. reflexivity.
Qed.

(* ---- the covariance measures thickness ---- *)
Lemma centroid_mean l : centroid l = div3 (vsum3 l) (INR (length l)).
Proof.
  unfold centroid, div3. cbv zeta. f_equal; f_equal; induction l as [|p l IH]; try reflexivity;
  cbn [map vsum3 fold_right]; rewrite rsum_cons, IH; reflexivity.
Qed.
Lemma gram_form u l : dot3 u (mulv3 (gram l l) u) = rsum (map (fun d => dot3 u d ^ 2) l).
Proof.
  unfold gram. induction l as [|p l IH]; [cbn; unfold dot3, mulv3, zero3, vmul3, tr3; cbn; ring|].
  cbn [combine fold_right map]. rewrite rsum_cons, <- IH. cbn [fst snd].
  generalize (fold_right (fun p0 m => madd3 (outer3 (fst p0) (snd p0)) m) zero3 (combine l l)). intros g. clear IH l.
  unfold outer3. m3r. ring.
Qed.
Lemma gram_sym l : symmetric (gram l l).
Proof.
  unfold symmetric, gram. induction l as [|p l IH]; [reflexivity|].
  cbn [combine fold_right fst snd]. revert IH. generalize (fold_right (fun p0 m => madd3 (outer3 (fst p0) (snd p0)) m) zero3 (combine l l)).
  intros g. clear l. unfold outer3. m3r. intros H. injection H. intros. apply M3_eq; lra.
Qed.
Lemma covariance_sym K l : symmetric (covariance K l).
Proof.
  unfold covariance. cbv zeta. generalize (gram_sym (map (fun q => sub3 q (div3 (vsum3 l) (INR K))) l)).
  generalize (gram (map (fun q => sub3 q (div3 (vsum3 l) (INR K))) l) (map (fun q => sub3 q (div3 (vsum3 l) (INR K))) l)).
  generalize (/ INR K). intros k g. unfold symmetric. m3r. intros H. injection H. intros. apply M3_eq; nra.
Qed.
Lemma covariance_form K l u : length l = K -> dot3 u (mulv3 (covariance K l) u) = thickness l u.
Proof.
  intros <-. unfold covariance, thickness. cbv zeta. rewrite centroid_mean.
  set (c := div3 (vsum3 l) (INR (length l))). set (d := map (fun q => sub3 q c) l).
  replace (rsum (map (fun q => dot3 u (sub3 q c) ^ 2) l)) with (rsum (map (fun t => dot3 u t ^ 2) d)) by (unfold d; rewrite map_map; reflexivity).
  rewrite <- gram_form. generalize (gram d d). intros g. unfold Rdiv. generalize (/ INR (length l)). intros k. clear. m3r. ring.
Qed.
