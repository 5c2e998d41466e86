From Verif Require Import Base RBase Rectangles RectanglesSpec RectanglesProofs RectanglesProofs2 Textures TexturesSpec.
From Coq Require Import Lra.
Local Open Scope R_scope.

(* ---- floor ---- *)
Lemma floor_bounds x : IZR (Int_part x) <= x < IZR (Int_part x) + 1.
Proof. destruct (base_Int_part x) as (H1 & H2). lra. Qed.
Lemma floor_unique x k : IZR k <= x < IZR k + 1 -> Int_part x = k.
Proof.
  intros (H1 & H2). destruct (floor_bounds x) as (H3 & H4).
  assert (A : IZR (Int_part x) < IZR (k + 1)) by (rewrite plus_IZR; lra). assert (B : IZR k < IZR (Int_part x + 1)) by (rewrite plus_IZR; lra).
  apply lt_IZR in A, B. lia.
Qed.
Lemma floor_shift k x : Int_part (IZR k + x) = (k + Int_part x)%Z.
Proof. apply floor_unique. rewrite plus_IZR. pose proof (floor_bounds x). lra. Qed.
Lemma floor_IZR k : Int_part (IZR k) = k.
Proof. apply floor_unique. lra. Qed.
Lemma floor_ge x k : IZR k <= x -> (k <= Int_part x)%Z.
Proof. intros H. pose proof (floor_bounds x). assert (A : IZR k < IZR (Int_part x + 1)) by (rewrite plus_IZR; lra). apply lt_IZR in A. lia. Qed.
Lemma floor_lt x k : x < IZR k -> (Int_part x < k)%Z.
Proof. intros H. pose proof (floor_bounds x). apply lt_IZR. lra. Qed.

(* ---- linear interpolation along one axis ---- *)
Definition lin (f : Z -> R) (x : R) : R := (IZR (Int_part x + 1) - x) * f (Int_part x) + (x - IZR (Int_part x)) * f (Int_part x + 1)%Z.
Lemma bilinear_lin m y x : bilinear m y x = lin (fun i => lin (fun j => cell m i j) x) y.
Proof. unfold bilinear, lin. ring. Qed.
Lemma bilinear_lin' m y x : bilinear m y x = lin (fun j => lin (fun i => cell m i j) y) x.
Proof. unfold bilinear, lin. ring. Qed.
Lemma lin_shift f k x : lin f (IZR k + x) = lin (fun j => f (k + j)%Z) x.
Proof. unfold lin. rewrite floor_shift, !plus_IZR. replace (k + Int_part x + 1)%Z with (k + (Int_part x + 1))%Z by lia. ring. Qed.
Lemma lin_ext f g x : f (Int_part x) = g (Int_part x) -> (x <> IZR (Int_part x) -> f (Int_part x + 1)%Z = g (Int_part x + 1)%Z) -> lin f x = lin g x.
Proof.
  intros H1 H2. unfold lin. rewrite H1. destruct (Req_dec x (IZR (Int_part x))) as [E|N]; [|rewrite (H2 N); reflexivity].
  replace (x - IZR (Int_part x)) with 0 by lra. ring.
Qed.
Lemma lin_int f k : lin f (IZR k) = f k.
Proof. unfold lin. rewrite floor_IZR, plus_IZR. ring. Qed.
Definition clampZ (n j : Z) : Z := Z.min (n - 1) (Z.max j 0).
(* inside [0, n-1] only the cells 0 .. n-1 matter *)
Lemma lin_inside f g n x : (0 < n)%Z -> 0 <= x <= IZR (n - 1) -> (forall j, (0 <= j < n)%Z -> f j = g j) -> lin f x = lin g x.
Proof.
  intros Hn Hx Hfg. assert (F0 : (0 <= Int_part x)%Z) by (apply floor_ge; lra).
  assert (F1 : (Int_part x < n)%Z) by (apply floor_lt; replace n with (n - 1 + 1)%Z by lia; rewrite plus_IZR; lra).
  apply lin_ext; [apply Hfg; lia|]. intros N. apply Hfg. pose proof (floor_bounds x).
  assert (IZR (Int_part x) < IZR (n - 1)) by lra. apply lt_IZR in H0. lia.
Qed.
Lemma lin_clip f n x : (0 < n)%Z -> -1 / 2 <= x <= IZR n - 1 / 2 -> lin (fun j => f (clampZ n j)) x = lin f (clip n x).
Proof.
  intros Hn Hx. assert (Hn1 : 1 <= IZR n) by (apply IZR_le; lia). unfold clip. rewrite minus_IZR.
  destruct (Rlt_le_dec x 0) as [H0|H0].
  - rewrite Rmax_right by lra. rewrite Rmin_right by lra. replace 0 with (IZR 0) by reflexivity. rewrite lin_int.
    assert (E : Int_part x = (-1)%Z) by (apply floor_unique; lra). unfold lin. rewrite E. change (-1 + 1)%Z with 0%Z. unfold clampZ.
    replace (Z.min (n - 1) (Z.max (-1) 0)) with 0%Z by lia. replace (Z.min (n - 1) (Z.max 0 0)) with 0%Z by lia. ring.
  - rewrite Rmax_left by lra. destruct (Rle_lt_dec x (IZR n - 1)) as [H1|H1].
    + rewrite Rmin_right by lra. apply (lin_inside _ _ n); [exact Hn|rewrite minus_IZR; lra|]. intros j Hj. f_equal. unfold clampZ. lia.
    + rewrite Rmin_left by lra. rewrite <- minus_IZR. rewrite lin_int.
      assert (E : Int_part x = (n - 1)%Z) by (apply floor_unique; rewrite minus_IZR; lra). unfold lin. rewrite E. unfold clampZ.
      replace (Z.min (n - 1) (Z.max (n - 1) 0)) with (n - 1)%Z by lia. replace (Z.min (n - 1) (Z.max (n - 1 + 1) 0)) with (n - 1)%Z by lia. rewrite plus_IZR. ring.
Qed.

(* ---- source indices in range ---- *)
Lemma reflect_id lo hi x : lo < hi -> lo <= x <= hi -> reflect lo hi x = x.
Proof.
  intros H Hx. unfold reflect. destruct (Reqb_spec lo hi) as [E|_]; [lra|]. rewrite Rabs_pos_eq by lra.
  destruct (Req_dec x hi) as [->|N].
  - replace ((hi - lo) / (hi - lo)) with (IZR 1) by (field; lra). rewrite floor_IZR. cbn [Z.even]. ring.
  - assert (E : Int_part ((x - lo) / (hi - lo)) = 0%Z).
    { apply floor_unique. assert (0 < hi - lo) by lra. split.
      - apply Rmult_le_pos; [lra|]. left. apply Rinv_0_lt_compat. lra.
      - rewrite Rplus_0_l. apply Rmult_lt_reg_r with (hi - lo); [lra|]. unfold Rdiv. rewrite Rmult_assoc, Rinv_l by lra. lra. }
    rewrite E. cbn [Z.even]. ring.
Qed.
Lemma clip_id size x : 0 <= x <= IZR (size - 1) -> clip size x = x.
Proof. intros H. unfold clip. rewrite Rmax_left by lra. rewrite Rmin_right by lra. reflexivity. Qed.
(* positions inside the map are used as they are, in every padding mode *)
Lemma index_inside align mode size g : 0 <= unnormalize align size g <= IZR (size - 1) -> source_index align mode size g = unnormalize align size g.
Proof.
  intros H. unfold source_index. set (x := unnormalize align size g) in *. destruct mode; [reflexivity|apply clip_id; exact H|].
  destruct align.
  - destruct (Req_dec 0 (IZR (size - 1))) as [E|N].
    + unfold reflect. destruct (Reqb_spec 0 (IZR (size - 1))) as [_|C]; [|contradiction]. rewrite clip_id by lra. lra.
    + rewrite reflect_id by lra. apply clip_id. exact H.
  - rewrite minus_IZR in *. rewrite reflect_id by lra. apply clip_id. rewrite minus_IZR. exact H.
Qed.
Lemma index_half mode size g : (0 < size)%Z -> -1 / 2 <= unnormalize false size g <= IZR size - 1 / 2 -> mode <> Zeros -> source_index false mode size g = clip size (unnormalize false size g).
Proof.
  intros Hs H N. assert (1 <= IZR size) by (apply IZR_le; lia). unfold source_index. set (x := unnormalize false size g) in *. destruct mode; [contradiction|reflexivity|]. rewrite reflect_id by lra. reflexivity.
Qed.

(* ---- transposition ---- *)
Lemma cell_transpose m i j : cell (transpose m) i j = cell m j i.
Proof. unfold cell, transpose. cbn [mh mw tex]. destruct (0 <=? i)%Z, (i <? mw m)%Z, (0 <=? j)%Z, (j <? mh m)%Z; reflexivity. Qed.
Lemma texel_transpose align mode im m uv : texel align mode im (transpose m) (1 - snd uv, 1 - fst uv) = texel align mode im m uv.
Proof.
  unfold texel, grid_sample. cbn [fst snd transpose mh mw]. change (TMap (mw m) (mh m) (fun i j => tex m j i)) with (transpose m).
  replace (-1 + (1 - snd uv) * (1 - -1)) with (1 + snd uv * (-1 - 1)) by ring. replace (1 + (1 - fst uv) * (-1 - 1)) with (-1 + fst uv * (1 - -1)) by ring.
  set (x := source_index align mode (mw m) _). set (y := source_index align mode (mh m) _). destruct im.
  - rewrite bilinear_lin, bilinear_lin'. unfold lin. rewrite !cell_transpose. reflexivity.
  - apply cell_transpose.
Qed.

(* ---- nearest ---- *)
Lemma nearbyint_spec x k : IZR k - 1 / 2 < x < IZR k + 1 / 2 -> nearbyint x = k.
Proof.
  intros H. unfold nearbyint. destruct (Rlt_le_dec x (IZR k)) as [L|L].
  - assert (E : Int_part x = (k - 1)%Z) by (apply floor_unique; rewrite minus_IZR; lra). rewrite E, minus_IZR.
    destruct (Rltb_spec (x - (IZR k - 1)) (1 / 2)); [lra|]. destruct (Rltb_spec (1 / 2) (x - (IZR k - 1))); [lia|lra].
  - assert (E : Int_part x = k) by (apply floor_unique; lra). rewrite E. destruct (Rltb_spec (x - IZR k) (1 / 2)); [reflexivity|lra].
Qed.
Lemma not_halfway x : ~ halfway x -> exists k, IZR k - 1 / 2 < x < IZR k + 1 / 2.
Proof.
  intros H. pose proof (floor_bounds x) as B. destruct (Rtotal_order (x - IZR (Int_part x)) (1 / 2)) as [L|[E|G]].
  - exists (Int_part x). lra.
  - exfalso. apply H. exists (Int_part x). lra.
  - exists (Int_part x + 1)%Z. rewrite plus_IZR. lra.
Qed.
