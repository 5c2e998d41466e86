From Coq Require Import Reals List Bool Arith ZArith Lra Lia Psatz.
From Verif Require Import Base RBase Textures TexturesProofs VertAlign VertAlignSpec VertAlignProofs Atlas AtlasSpec.
Import ListNotations.
Local Open Scope R_scope.

Lemma INR_below a n : (a < n)%nat -> INR a <= INR n - 1.
Proof. intros H. assert (A : INR (S a) <= INR n) by (apply le_INR; lia). rewrite S_INR in A. lra. Qed.

(* ---- cells and small triangles ---- *)
Lemma cell_small n x y : (x < n)%nat -> (y < n)%nat -> exists t, of_size n t /\ cell_of n t = (x, y) /\
  (forall t', of_size n t' -> cell_of n t' = (x, y) -> t' = t) /\
  exists w2, cell_bary n x y = (fst (centroid n t), snd (centroid n t), w2) /\ w2 = 1 - (fst (centroid n t) + snd (centroid n t)).
Proof.
  intros X Y. assert (P : 0 < INR n) by (apply lt_0_INR; lia). unfold cell_bary.
  destruct (Nat.ltb_spec (x + y) n) as [L|L].
  - exists (Up x y). split; [exact L|]. split; [reflexivity|]. split.
    + intros [i j|i j] S0 E; cbn in S0, E; injection E; intros; [f_equal; lia|]. exfalso. lia.
    + eexists. cbn [centroid corners map fst snd rsum fold_right]. rewrite !S_INR. cbv zeta. split; [|reflexivity].
      f_equal; [f_equal; field; lra|]. rewrite !Rplus_0_r. f_equal. field. lra.
  - exists (Down (n - 1 - x) (n - 1 - y)). split; [cbn; lia|]. split; [cbn; f_equal; lia|]. split.
    + intros [i j|i j] S0 E; cbn in S0, E; injection E; intros; [exfalso; lia|f_equal; lia].
    + eexists. cbn [centroid corners map fst snd rsum fold_right]. rewrite !S_INR, !minus_INR by lia. cbn [INR]. cbv zeta. split; [|reflexivity].
      f_equal; [f_equal; field; lra|]. f_equal. field. lra.
Qed.
Lemma centroid_cell n t : of_size n t -> let (x, y) := cell_of n t in (x < n)%nat /\ (y < n)%nat /\
  cell_bary n x y = (fst (centroid n t), snd (centroid n t), 1 - (fst (centroid n t) + snd (centroid n t))).
Proof.
  intros S0. destruct (cell_of n t) as [x y] eqn:E.
  assert (B : (x < n)%nat /\ (y < n)%nat) by (destruct t as [i j|i j]; cbn in S0, E; injection E; intros; lia).
  destruct B as [X Y]. split; [exact X|]. split; [exact Y|]. destruct (cell_small n x y X Y) as (t' & _ & _ & U & w2 & C & W).
  rewrite <- (U t S0 E) in C, W. rewrite C, W. reflexivity.
Qed.
Lemma bary_inside n x y : (x < n)%nat -> (y < n)%nat -> let '(w0, w1, w2) := cell_bary n x y in
  0 < w0 /\ 0 < w1 /\ 0 < w2 /\ w0 + w1 + w2 = 1.
Proof.
  intros X Y. assert (P : 0 < INR n) by (apply lt_0_INR; lia). unfold cell_bary.
  pose proof (pos_INR x). pose proof (pos_INR y).
  assert (D : forall a, 0 < a -> 0 < a / INR n) by (intros a A; apply Rmult_lt_0_compat; [exact A|apply Rinv_0_lt_compat, P]).
  pose proof (INR_below x n X).
  pose proof (INR_below y n Y).
  destruct (Nat.ltb_spec (x + y) n) as [L|L].
  - pose proof (INR_below (x + y) n L) as Q. rewrite plus_INR in Q.
    split; [apply D; lra|]. split; [apply D; lra|]. split; [|ring].
    replace (1 - ((INR x + 1 / 3) / INR n + (INR y + 1 / 3) / INR n)) with ((INR n - INR x - INR y - 2 / 3) / INR n) by (field; lra).
    apply D. lra.
  - assert (INR n <= INR x + INR y) by (rewrite <- plus_INR; apply le_INR; lia).
    split; [apply D; lra|]. split; [apply D; lra|]. split; [|ring].
    replace (1 - ((INR n - 1 - INR x + 2 / 3) / INR n + (INR n - 1 - INR y + 2 / 3) / INR n)) with ((INR x + INR y - INR n + 2 / 3) / INR n) by (field; lra).
    apply D. lra.
Qed.

(* ---- the cell picked for a point ---- *)
Lemma to_int_nonneg x : 0 <= x -> exists k, to_int x = Z.of_nat k /\ INR k <= x < INR k + 1.
Proof.
  intros H. unfold to_int. destruct (Rltb_spec x 0); [lra|]. pose proof (floor_bounds x) as [A B]. pose proof (floor_ge x 0 H) as G.
  exists (Z.to_nat (Int_part x)). rewrite Z2Nat.id by lia. split; [reflexivity|]. rewrite INR_IZR_INZ, Z2Nat.id by lia. lra.
Qed.
Lemma pick_small n w0 w1 w2 : (0 < n)%nat -> inside (w0, w1, w2) -> 0 < w2 ->
  exists t, of_size n t /\ within n t w0 w1 /\ pick n w0 w1 = (Z.of_nat (fst (cell_of n t)), Z.of_nat (snd (cell_of n t))).
Proof.
  intros N (A & B & C & D) W. assert (P : 0 < INR n) by (apply lt_0_INR; lia).
  destruct (to_int_nonneg (w0 * INR n)) as (x & X & X1 & X2); [apply Rmult_le_pos; lra|].
  destruct (to_int_nonneg (w1 * INR n)) as (y & Y & Y1 & Y2); [apply Rmult_le_pos; lra|].
  assert (S0 : w0 * INR n + w1 * INR n < INR n) by nra.
  assert (L : (x + y < n)%nat) by (apply INR_lt; rewrite plus_INR; lra).
  unfold pick. rewrite X, Y. rewrite !Z.min_l by lia. rewrite <- !INR_IZR_INZ.
  replace ((w0 + w1) * INR n) with (w0 * INR n + w1 * INR n) by ring.
  destruct (Rleb_spec (w0 * INR n + w1 * INR n - (INR x + INR y)) 1) as [E|E].
  - exists (Up x y). split; [exact L|]. split; [cbn; lra|]. reflexivity.
  - exists (Down x y). assert (L' : (x + y + 1 < n)%nat) by (apply INR_lt; rewrite !plus_INR; cbn [INR]; lra).
    split; [exact L'|]. split; [cbn; lra|]. cbn [cell_of fst snd]. f_equal; lia.
Qed.
Lemma within_near n t w0 w1 : (0 < n)%nat -> within n t w0 w1 ->
  Rabs (w0 - fst (centroid n t)) <= 2 / 3 / INR n /\ Rabs (w1 - snd (centroid n t)) <= 2 / 3 / INR n.
Proof.
  intros N W. assert (P : 0 < INR n) by (apply lt_0_INR; lia).
  assert (D : forall a b, Rabs (a * INR n - b) <= 2 / 3 -> Rabs (a - b / INR n) <= 2 / 3 / INR n).
  { intros a b H. replace (a - b / INR n) with ((a * INR n - b) * / INR n) by (field; lra).
    rewrite Rabs_mult, (Rabs_right (/ INR n)) by (apply Rle_ge, Rlt_le, Rinv_0_lt_compat, P).
    unfold Rdiv. apply Rmult_le_compat_r; [left; apply Rinv_0_lt_compat, P|exact H]. }
  destruct t as [i j|i j]; cbn in W; destruct W as (A & B & C); cbn [centroid corners map fst snd rsum fold_right]; rewrite !S_INR.
  - replace ((INR i / INR n + ((INR i + 1) / INR n + (INR i / INR n + 0))) / 3) with ((INR i + 1 / 3) / INR n) by (field; lra).
    replace ((INR j / INR n + (INR j / INR n + ((INR j + 1) / INR n + 0))) / 3) with ((INR j + 1 / 3) / INR n) by (field; lra).
    split; apply D; apply Rabs_le; lra.
  - replace (((INR i + 1) / INR n + ((INR i + 1) / INR n + (INR i / INR n + 0))) / 3) with ((INR i + 2 / 3) / INR n) by (field; lra).
    replace (((INR j + 1) / INR n + (INR j / INR n + ((INR j + 1) / INR n + 0))) / 3) with ((INR j + 2 / 3) / INR n) by (field; lra).
    split; apply D; apply Rabs_le; lra.
Qed.
Lemma zget_nat {A} (l : list A) k a : nth_error l k = Some a -> zget l (Z.of_nat k) = Ok a.
Proof.
  intros H. unfold zget. destruct (Z.ltb_spec (Z.of_nat k) 0); [lia|]. destruct (Z.ltb_spec (Z.of_nat k) 0); [lia|].
  rewrite Nat2Z.id. apply rget_some, H.
Qed.
Lemma square_cell image n f x y : (x < n)%nat -> (y < n)%nat ->
  exists row, nth_error (face_square image n f) y = Some row /\
    nth_error row x = Some (map (fun m => sample_image m (uv_pos f (cell_bary n x y))) image).
Proof.
  intros X Y. unfold face_square. eexists. split.
  - apply map_nth_error. rewrite (nth_error_nth' _ 0%nat) by (rewrite seq_length; exact Y). rewrite seq_nth by exact Y. reflexivity.
  - rewrite nth_error_map. rewrite (nth_error_nth' _ 0%nat) by (rewrite seq_length; exact X). rewrite seq_nth by exact X. reflexivity.
Qed.
Lemma sample_cell image n f atlas k w0 w1 w2 : nth_error atlas k = Some (face_square image n f) -> (0 < n)%nat -> inside (w0, w1, w2) -> 0 < w2 ->
  exists t, of_size n t /\ within n t w0 w1 /\
    sample_atlas atlas n (Z.of_nat k) (w0, w1, w2) =
    Ok (map (fun m => sample_image m (uv_pos f (fst (centroid n t), snd (centroid n t), 1 - (fst (centroid n t) + snd (centroid n t))))) image).
Proof.
  intros K N I W. destruct (pick_small n w0 w1 w2 N I W) as (t & S0 & Wi & P). exists t. split; [exact S0|]. split; [exact Wi|].
  unfold sample_atlas. destruct (Z.ltb_spec (Z.of_nat k) 0); [lia|]. rewrite P.
  pose proof (centroid_cell n t S0) as C. destruct (cell_of n t) as [x y]. destruct C as (X & Y & C). cbn [fst snd].
  rewrite (zget_nat atlas k _ K). cbn [rbind]. destruct (square_cell image n f x y X Y) as (row & R1 & R2).
  rewrite (zget_nat _ y row R1). cbn [rbind]. rewrite (zget_nat _ x _ R2). cbn [rbind]. rewrite map_map. rewrite C. f_equal.
  apply map_ext. intros m. ring.
Qed.
Lemma sample_centroid n x y : (x < n)%nat -> (y < n)%nat -> let '(w0, w1, _) := cell_bary n x y in pick n w0 w1 = (Z.of_nat x, Z.of_nat y).
Proof.
  intros X Y. assert (P : 0 < INR n) by (apply lt_0_INR; lia). pose proof (bary_inside n x y X Y) as B.
  destruct (cell_bary n x y) as [[w0 w1] w2] eqn:E. destruct B as (B0 & B1 & B2 & B3).
  destruct (pick_small n w0 w1 w2) as (t & S0 & Wi & ->); [lia|repeat split; lra|exact B2|].
  (* the small triangle of the centroid is that of the cell *)
  unfold cell_bary in E. destruct (Nat.ltb_spec (x + y) n) as [L|L]; injection E as E0 E1 _.
  - assert (F0 : w0 * INR n = INR x + 1 / 3) by (rewrite <- E0; field; lra). assert (F1 : w1 * INR n = INR y + 1 / 3) by (rewrite <- E1; field; lra).
    destruct t as [i j|i j]; cbn in Wi; rewrite F0, F1 in Wi; destruct Wi as (W0 & W1 & W2).
    + assert (i <= x)%nat by (apply INR_le; pose proof (le_INR x i); destruct (le_lt_dec i x); [apply le_INR; lia|]; assert (INR (S x) <= INR i) by (apply le_INR; lia); rewrite S_INR in *; lra).
      assert (j <= y)%nat by (apply INR_le; destruct (le_lt_dec j y); [apply le_INR; lia|]; assert (INR (S y) <= INR j) by (apply le_INR; lia); rewrite S_INR in *; lra).
      assert (INR (x + y) <= INR (i + j)) by (destruct (le_lt_dec (x + y) (i + j)); [apply le_INR; lia|]; assert (INR (S (i + j)) <= INR (x + y)) by (apply le_INR; lia); rewrite S_INR, !plus_INR in *; lra).
      apply INR_le in H1. cbn. f_equal; f_equal; lia.
    + exfalso.
      assert (x <= i)%nat by (destruct (le_lt_dec x i); [assumption|]; assert (INR (S i) <= INR x) by (apply le_INR; lia); rewrite S_INR in *; lra).
      assert (y <= j)%nat by (destruct (le_lt_dec y j); [assumption|]; assert (INR (S j) <= INR y) by (apply le_INR; lia); rewrite S_INR in *; lra).
      apply le_INR in H, H0. lra.
  - assert (F0 : w0 * INR n = INR (n - 1 - x) + 2 / 3) by (rewrite <- E0, !minus_INR by lia; cbn [INR]; field; lra).
    assert (F1 : w1 * INR n = INR (n - 1 - y) + 2 / 3) by (rewrite <- E1, !minus_INR by lia; cbn [INR]; field; lra).
    set (x' := (n - 1 - x)%nat) in *. set (y' := (n - 1 - y)%nat) in *.
    destruct t as [i j|i j]; cbn in Wi; rewrite F0, F1 in Wi; destruct Wi as (W0 & W1 & W2).
    + exfalso.
      assert (i <= x')%nat by (destruct (le_lt_dec i x'); [assumption|]; assert (INR (S x') <= INR i) by (apply le_INR; lia); rewrite S_INR in *; lra).
      assert (j <= y')%nat by (destruct (le_lt_dec j y'); [assumption|]; assert (INR (S y') <= INR j) by (apply le_INR; lia); rewrite S_INR in *; lra).
      apply le_INR in H, H0. lra.
    + assert (x' <= i)%nat by (destruct (le_lt_dec x' i); [assumption|]; assert (INR (S i) <= INR x') by (apply le_INR; lia); rewrite S_INR in *; lra).
      assert (y' <= j)%nat by (destruct (le_lt_dec y' j); [assumption|]; assert (INR (S j) <= INR y') by (apply le_INR; lia); rewrite S_INR in *; lra).
      assert (i + j <= x' + y')%nat by (destruct (le_lt_dec (i + j) (x' + y')); [assumption|]; assert (INR (S (x' + y')) <= INR (i + j)) by (apply le_INR; lia); rewrite S_INR, !plus_INR in *; lra).
      cbn. f_equal; f_equal; lia.
Qed.
