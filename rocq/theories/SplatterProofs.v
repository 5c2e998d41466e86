From Coq Require Import Reals ZArith Arith Lra Lia Bool List.
From Verif Require Import Base RBase Geom Splatter SplatterSpec.
Import ListNotations.
Local Open Scope R_scope.

Lemma nine (f : nat -> R) :
  sumf 9 f = f 0%nat + f 1%nat + f 2%nat + f 3%nat + f 4%nat + f 5%nat + f 6%nat + f 7%nat + f 8%nat.
Proof. rewrite !sumf_S, sumf_0. ring. Qed.

Lemma kernel_sum_pos (f : nat -> R) : 0 < sumf 9 (fun d => exp (f d)).
Proof.
  rewrite nine.
  pose proof (exp_pos (f 0%nat)). pose proof (exp_pos (f 1%nat)). pose proof (exp_pos (f 2%nat)).
  pose proof (exp_pos (f 3%nat)). pose proof (exp_pos (f 4%nat)). pose proof (exp_pos (f 5%nat)).
  pose proof (exp_pos (f 6%nat)). pose proof (exp_pos (f 7%nat)). pose proof (exp_pos (f 8%nat)). lra.
Qed.

Lemma normalization_ok sigma : 0 < sigma -> exists v, normalization sigma = Ok v /\ 0 < v.
Proof.
  intros H. unfold normalization. destruct (Rleb_spec sigma 0) as [L|L]; [lra|].
  eexists; split; [reflexivity|]. apply Rdiv_lt_0_compat; [lra|]. apply kernel_sum_pos.
Qed.

Lemma forward_ok sigma bgc H W K im out :
  forward sigma bgc H W K im = Ok out ->
  exists n norm, K = S n /\ 0 < norm /\ 0 < sigma /\ normalization sigma = Ok norm /\
    forall h w, out h w = compose bgc (splatted sigma norm H W n im h w).
Proof.
  unfold forward. destruct K as [|n]; [discriminate|].
  unfold normalization. destruct (Rleb_spec sigma 0) as [L|L]; [discriminate|].
  cbn [rbind]. intros E. injection E as <-. exists n. eexists. repeat split; [| lra].
  apply Rdiv_lt_0_compat; [lra|]. apply kernel_sum_pos.
Qed.

Lemma offset_where H W h w d : (d < 9)%nat ->
  (forall t, offset_splats H W t d h w = 0) \/
  (exists a b, near H W h w a b /\ forall t, offset_splats H W t d h w = t a b).
Proof.
  intros D. unfold offset_splats, padded.
  assert (X : (d / 3 <= 2)%nat) by (apply Nat.lt_succ_r; apply Nat.div_lt_upper_bound; lia).
  assert (Y : (d mod 3 < 3)%nat) by (apply Nat.mod_upper_bound; lia).
  set (x := (d / 3)%nat) in *. set (y := (d mod 3)%nat) in *.
  match goal with |- context [if ?c then _ else _] => destruct c eqn:E end; [|left; reflexivity].
  right. exists (Z.to_nat (Z.of_nat h + Z.of_nat y - 1)), (Z.to_nat (Z.of_nat w + Z.of_nat x - 1)).
  split; [|reflexivity]. unfold near. lia.
Qed.

Lemma offset_from H W h w a b : near H W h w a b ->
  exists d, (d < 9)%nat /\ forall t, offset_splats H W t d h w = t a b.
Proof.
  unfold near. intros (A & B & C1 & C2 & C3 & C4).
  exists (3 * (b + 1 - w) + (a + 1 - h))%nat. split; [lia|]. intros t. unfold offset_splats, padded.
  assert (X : ((3 * (b + 1 - w) + (a + 1 - h)) / 3 = b + 1 - w)%nat).
  { symmetry. apply (Nat.div_unique _ 3 _ (a + 1 - h)); lia. }
  assert (Y : ((3 * (b + 1 - w) + (a + 1 - h)) mod 3 = a + 1 - h)%nat).
  { symmetry. apply (Nat.mod_unique _ 3 (b + 1 - w)); lia. }
  rewrite X, Y.
  match goal with |- context [if ?c then _ else _] => destruct c eqn:E end; [|lia].
  f_equal; lia.
Qed.

Lemma rgba3 f : rgba f 3 = if bg f then 0 else 1.
Proof. unfold rgba. destruct (bg f); reflexivity. Qed.
Lemma splat_weight_nonneg sigma norm f d : 0 < norm -> 0 <= splat_weight sigma norm f d.
Proof.
  intros N. unfold splat_weight. rewrite rgba3.
  match goal with |- context [exp ?x] => pose proof (exp_pos x) as P; set (e := exp x) in * end.
  destruct (bg f); [lra|]. apply Rmult_le_pos; [lra|lra].
Qed.
Lemma splat_weight_pos sigma norm f d : 0 < norm -> bg f = false -> 0 < splat_weight sigma norm f d.
Proof.
  intros N B. unfold splat_weight. rewrite rgba3, B. apply Rmult_lt_0_compat; [lra|apply exp_pos].
Qed.
Lemma splat_weight_bg sigma norm f d : bg f = true -> splat_weight sigma norm f d = 0.
Proof. intros B. unfold splat_weight. rewrite rgba3, B. ring. Qed.

Lemma splat4 sigma norm f d : splat sigma norm f d 4 = splat_weight sigma norm f d.
Proof. reflexivity. Qed.
Lemma splat3 sigma norm f d : splat sigma norm f d 3 = splat_weight sigma norm f d.
Proof.
  unfold splat. cbn [Nat.eqb]. rewrite rgba3. destruct (bg f) eqn:B; [|ring].
  rewrite (splat_weight_bg _ _ _ _ B). ring.
Qed.
Lemma splat_col sigma norm f d c : (c < 3)%nat -> bg f = false ->
  splat sigma norm f d c = splat_weight sigma norm f d * colour f c.
Proof.
  intros C B. unfold splat, rgba. rewrite B.
  destruct (Nat.eqb_spec c 4); [lia|]. destruct (Nat.eqb_spec c 3); [lia|]. reflexivity.
Qed.
Lemma splat_bg sigma norm f d c : bg f = true -> splat sigma norm f d c = 0.
Proof.
  intros B. unfold splat. rewrite (splat_weight_bg _ _ _ _ B). destruct (Nat.eqb c 4); [reflexivity|ring].
Qed.

(* Sums over layers and directions. *)
Lemma splatted_ext sigma norm H W n im im' h w l c c' :
  (forall d, (d < 9)%nat -> occlusion H W n im h w d = occlusion H W n im' h w d) ->
  (forall a b k d, near H W h w a b -> (k <= n)%nat -> (d < 9)%nat ->
     splat sigma norm (im a b k) d c = splat sigma norm (im' a b k) d c') ->
  splatted sigma norm H W n im h w l c = splatted sigma norm H W n im' h w l c'.
Proof.
  intros O E. unfold splatted. apply sumf_ext. intros k K. apply sumf_ext. intros d D.
  rewrite (O d D). destruct (mask l _ k); [|reflexivity].
  destruct (offset_where H W h w d D) as [Z | (a & b & N & Z)]; rewrite !Z; [reflexivity|].
  apply E; [exact N | lia | exact D].
Qed.

Lemma splatted_34 sigma norm H W n im h w l :
  splatted sigma norm H W n im h w l 3 = splatted sigma norm H W n im h w l 4.
Proof. apply splatted_ext; [reflexivity|]. intros. rewrite splat3, splat4. reflexivity. Qed.

Lemma splatted_nonneg sigma norm H W n im h w l : 0 < norm ->
  0 <= splatted sigma norm H W n im h w l 4.
Proof.
  intros N. apply sumf_nonneg. intros k K. apply sumf_nonneg. intros d D.
  destruct (mask _ _ _); [|lra].
  destruct (offset_where H W h w d D) as [Z | (a & b & Q & Z)]; rewrite !Z; [lra|].
  rewrite splat4. apply splat_weight_nonneg, N.
Qed.

Lemma splatted_bounds sigma norm H W n im h w l c lo hi : 0 < norm -> (c < 3)%nat ->
  (forall a b k, near H W h w a b -> (k <= n)%nat -> bg (im a b k) = false ->
     lo <= colour (im a b k) c <= hi) ->
  lo * splatted sigma norm H W n im h w l 4 <= splatted sigma norm H W n im h w l c <=
  hi * splatted sigma norm H W n im h w l 4.
Proof.
  intros N C B. unfold splatted. rewrite <- !sumf_scal.
  assert (E : forall k d, (k < S n)%nat -> (d < 9)%nat ->
    lo * offset_splats H W (fun a b => splat sigma norm (im a b k) d 4) d h w <=
    offset_splats H W (fun a b => splat sigma norm (im a b k) d c) d h w <=
    hi * offset_splats H W (fun a b => splat sigma norm (im a b k) d 4) d h w).
  { intros k d K D. destruct (offset_where H W h w d D) as [Z | (a & b & Q & Z)]; rewrite !Z; [lra|].
    destruct (bg (im a b k)) eqn:G; [rewrite !(splat_bg _ _ _ _ _ G); lra|].
    rewrite splat4, (splat_col _ _ _ _ _ C G).
    pose proof (splat_weight_nonneg sigma norm (im a b k) d N) as P.
    destruct (B a b k Q ltac:(lia) G) as [L U].
    split; rewrite (Rmult_comm _ (colour _ _)); apply Rmult_le_compat_r; assumption. }
  split; apply sumf_le; intros k K; rewrite <- sumf_scal; apply sumf_le; intros d D;
    destruct (mask _ _ _); try lra; apply (E k d K D).
Qed.

(* The layers are blended like mixtures of the colours. *)
Lemma div_nonneg a b : 0 <= a -> 0 < b -> 0 <= a / b.
Proof.
  intros A B. unfold Rdiv. apply Rmult_le_pos; [exact A|]. left. apply Rinv_0_lt_compat, B.
Qed.
Lemma share_range x : 0 <= x -> 0 <= x * (1 / Rmax x 1) <= 1.
Proof.
  intros X. pose proof (Rmax_r x 1). pose proof (Rmax_l x 1).
  assert (P : 0 < Rmax x 1) by lra. replace (x * (1 / Rmax x 1)) with (x / Rmax x 1) by (field; lra).
  split; [apply div_nonneg; lra|]. apply (Rmult_le_reg_r (Rmax x 1)); [lra|].
  unfold Rdiv. rewrite Rmult_assoc, Rinv_l by lra. lra.
Qed.

Lemma blend_low a lo b p v q : 0 <= a <= 1 -> lo * a <= v -> q * lo + (1 - q) * b <= p ->
  (a + (1 - a) * q) * lo + (1 - (a + (1 - a) * q)) * b <= v + (1 - a) * p.
Proof.
  intros A V P. apply (Rmult_le_compat_l (1 - a)) in P; [|lra].
  replace ((a + (1 - a) * q) * lo + (1 - (a + (1 - a) * q)) * b)
    with (lo * a + (1 - a) * (q * lo + (1 - q) * b)) by ring. lra.
Qed.
Lemma blend_high a hi b p v q : 0 <= a <= 1 -> v <= hi * a -> p <= q * hi + (1 - q) * b ->
  v + (1 - a) * p <= (a + (1 - a) * q) * hi + (1 - (a + (1 - a) * q)) * b.
Proof.
  intros A V P. apply (Rmult_le_compat_l (1 - a)) in P; [|lra].
  replace ((a + (1 - a) * q) * hi + (1 - (a + (1 - a) * q)) * b)
    with (hi * a + (1 - a) * (q * hi + (1 - q) * b)) by ring. lra.
Qed.
Lemma blend_alpha a q : 0 <= a <= 1 -> 0 <= q <= 1 -> 0 <= a + (1 - a) * q <= 1.
Proof.
  intros A Q. assert (0 <= (1 - a) * q) by (apply Rmult_le_pos; lra).
  assert (0 <= (1 - a) * (1 - q)) by (apply Rmult_le_pos; lra). lra.
Qed.

Section Mix.
Variables (s : nat -> nat -> R) (bgc : nat -> R).
Hypothesis s34 : forall l, s l 3%nat = s l 4%nat.
Hypothesis spos : forall l, 0 <= s l 4%nat.

Lemma alpha_layer l : 0 <= normalized s l 3 <= 1.
Proof. unfold normalized. rewrite s34. apply share_range, spos. Qed.

Lemma colour_layer l c lo hi : lo * s l 4%nat <= s l c <= hi * s l 4%nat ->
  lo * normalized s l 3 <= normalized s l c <= hi * normalized s l 3.
Proof.
  intros [L U]. unfold normalized. rewrite s34. rewrite <- !Rmult_assoc.
  assert (0 <= 1 / Rmax (s l 4%nat) 1).
  { pose proof (Rmax_r (s l 4%nat) 1). apply div_nonneg; lra. }
  split; apply Rmult_le_compat_r; assumption.
Qed.

Lemma compose_alpha : 0 <= compose bgc s 3 <= 1.
Proof.
  unfold compose, over. cbn [Nat.eqb].
  repeat (apply blend_alpha; [apply alpha_layer|]). lra.
Qed.

Lemma compose_mix c lo hi : (c < 3)%nat -> (forall l, lo * s l 4%nat <= s l c <= hi * s l 4%nat) ->
  compose bgc s 3 * lo + (1 - compose bgc s 3) * bgc c <= compose bgc s c <=
  compose bgc s 3 * hi + (1 - compose bgc s 3) * bgc c.
Proof.
  intros C B. unfold compose, over. cbn [Nat.eqb].
  destruct (Nat.eqb_spec c 3) as [|_]; [lia|].
  split.
  - repeat (apply blend_low; [apply alpha_layer | apply (colour_layer _ c lo hi (B _)) |]). lra.
  - repeat (apply blend_high; [apply alpha_layer | apply (colour_layer _ c lo hi (B _)) |]). lra.
Qed.

Lemma compose_zero : (forall l, s l 4%nat = 0) -> compose bgc s 3 = 0.
Proof.
  intros Z. unfold compose, over, normalized. cbn [Nat.eqb]. rewrite !s34, !Z. ring.
Qed.

Lemma alpha_pos l : 0 < s l 4%nat -> 0 < normalized s l 3.
Proof.
  intros P. unfold normalized. rewrite s34. pose proof (Rmax_r (s l 4%nat) 1).
  apply Rmult_lt_0_compat; [exact P|]. apply Rdiv_lt_0_compat; lra.
Qed.

Lemma compose_pos l : (l < 3)%nat -> 0 < s l 4%nat -> 0 < compose bgc s 3.
Proof.
  intros L P. apply alpha_pos in P. unfold compose, over. cbn [Nat.eqb].
  pose proof (alpha_layer 0) as A0. pose proof (alpha_layer 1) as A1. pose proof (alpha_layer 2) as A2.
  set (x := normalized s 0 3) in *. set (y := normalized s 1 3) in *. set (z := normalized s 2 3) in *.
  assert (Q : 0 < x \/ 0 < y \/ 0 < z).
  { destruct l as [|[|[|l]]]; [left|right; left|right; right|lia]; exact P. }
  replace (x + (1 - x) * (y + (1 - y) * (z + (1 - z) * 0)))
    with (1 - (1 - x) * ((1 - y) * (1 - z))) by ring.
  assert (YZ : 0 <= (1 - y) * (1 - z) <= 1).
  { split; [apply Rmult_le_pos; lra|]. replace 1 with (1 * 1) at 3 by ring. apply Rmult_le_compat; lra. }
  set (u := (1 - y) * (1 - z)) in *.
  destruct Q as [Q | Q].
  - assert ((1 - x) * u <= (1 - x) * 1) by (apply Rmult_le_compat_l; lra). lra.
  - assert (U : u < 1).
    { unfold u. destruct Q as [Q | Q].
      - assert ((1 - y) * (1 - z) <= (1 - y) * 1) by (apply Rmult_le_compat_l; lra). lra.
      - assert ((1 - y) * (1 - z) <= 1 * (1 - z)) by (apply Rmult_le_compat_r; lra). lra. }
    assert ((1 - x) * u <= 1 * u) by (apply Rmult_le_compat_r; lra). lra.
Qed.
End Mix.

Lemma mask_some occ k : exists l, (l < 3)%nat /\ mask l occ k = true.
Proof.
  destruct (Z.lt_trichotomy (Z.of_nat k) occ) as [L | [L | L]].
  - exists 0%nat. split; [lia|]. cbn. lia.
  - exists 1%nat. split; [lia|]. cbn. lia.
  - exists 2%nat. split; [lia|]. cbn. lia.
Qed.

Lemma sumf_pos n f k : (k < n)%nat -> (forall i, (i < n)%nat -> 0 <= f i) -> 0 < f k -> 0 < sumf n f.
Proof.
  intros K N P. induction n as [|n IH]; [lia|]. rewrite sumf_S.
  assert (0 <= sumf n f) by (apply sumf_nonneg; intros; apply N; lia).
  assert (0 <= f n) by (apply N; lia).
  destruct (Nat.eq_dec k n) as [->|D]; [lra|].
  assert (0 < sumf n f) by (apply IH; [lia | intros; apply N; lia]). lra.
Qed.

Lemma splatted_pos sigma norm H W n im h w a b k : 0 < norm -> near H W h w a b -> (k <= n)%nat ->
  bg (im a b k) = false -> exists l, (l < 3)%nat /\ 0 < splatted sigma norm H W n im h w l 4.
Proof.
  intros N Q K B. destruct (offset_from H W h w a b Q) as (d & D & Z).
  destruct (mask_some (occlusion H W n im h w d) k) as (l & L & M). exists l. split; [exact L|].
  assert (NN : forall i j, (j < 9)%nat -> 0 <= (if mask l (occlusion H W n im h w j) i
      then offset_splats H W (fun a0 b0 => splat sigma norm (im a0 b0 i) j 4) j h w else 0)).
  { intros i j J. destruct (mask l (occlusion H W n im h w j) i); [|lra].
    destruct (offset_where H W h w j J) as [Z' | (a' & b' & Q' & Z')]; rewrite !Z'; [apply Rle_refl|].
    rewrite splat4. apply splat_weight_nonneg, N. }
  unfold splatted. apply (sumf_pos _ _ k); [lia| |].
  - intros i I. apply sumf_nonneg. intros j J. apply NN, J.
  - apply (sumf_pos _ _ d D); [intros j J; apply NN, J|].
    cbv beta. rewrite M, Z, splat4. apply splat_weight_pos; assumption.
Qed.

(* The output is a mixture of the colours around the pixel and the background. *)
Lemma forward_mixture sigma bgc H W K im out h w :
  forward sigma bgc H W K im = Ok out ->
  0 <= out h w 3%nat <= 1 /\
  (out h w 3%nat = 0 <-> (forall a b, near H W h w a b -> ~ covered im K a b)) /\
  (forall c lo hi, (c < 3)%nat ->
    (forall a b k, near H W h w a b -> (k < K)%nat -> bg (im a b k) = false ->
       lo <= colour (im a b k) c <= hi) ->
    out h w 3%nat * lo + (1 - out h w 3%nat) * bgc c <= out h w c <=
    out h w 3%nat * hi + (1 - out h w 3%nat) * bgc c).
Proof.
  intros E. apply forward_ok in E. destruct E as (n & norm & -> & N & S0 & _ & E). rewrite !E.
  pose proof (splatted_34 sigma norm H W n im h w) as S34.
  pose proof (fun l => splatted_nonneg sigma norm H W n im h w l N) as SP.
  split; [apply compose_alpha; assumption|]. split; [split|].
  - intros A a b Q (k & K & B).
    destruct (splatted_pos sigma norm H W n im h w a b k N Q ltac:(lia) B) as (l & L & P).
    pose proof (compose_pos _ bgc S34 SP l L P) as X. lra.
  - intros A. apply compose_zero; [exact S34|]. intros l.
    unfold splatted. apply sumf_zero. intros k K. apply sumf_zero. intros d D.
    destruct (mask _ _ _); [|reflexivity].
    destruct (offset_where H W h w d D) as [Z | (a & b & Q & Z)]; rewrite Z; [reflexivity|].
    destruct (bg (im a b k)) eqn:B; [apply splat_bg, B|].
    exfalso. apply (A a b Q). exists k. split; [lia|exact B].
  - intros c lo hi C B. apply compose_mix; [exact S34 | exact SP | exact C |].
    intros l. apply splatted_bounds; [exact N | exact C |]. intros a b k Q KK G. apply B; [exact Q|lia|exact G].
Qed.

(* Only the nine pixels matter. *)
Lemma padded_near H W t t' h w (x y : nat) : (x <= 2)%nat -> (y <= 2)%nat ->
  (forall a b, near H W h w a b -> t a b = t' a b) ->
  padded H W t (Z.of_nat h + Z.of_nat x - 1) (Z.of_nat w + Z.of_nat y - 1) =
  padded H W t' (Z.of_nat h + Z.of_nat x - 1) (Z.of_nat w + Z.of_nat y - 1).
Proof.
  intros X Y E. unfold padded.
  match goal with |- context [if ?c then _ else _] => destruct c eqn:L end; [|reflexivity].
  apply E. unfold near. lia.
Qed.

Lemma first_min_ext f g n : (forall k, (k <= n)%nat -> f k = g k) -> first_min f n = first_min g n.
Proof.
  induction n as [|n IH]; intros E; cbn [first_min]; [rewrite E by lia; reflexivity|].
  rewrite IH by (intros; apply E; lia). rewrite E by lia. reflexivity.
Qed.

Lemma occlusion_local H W n im im' h w d : (h < H)%nat -> (w < W)%nat -> (d < 9)%nat ->
  (forall a b k, near H W h w a b -> (k <= n)%nat -> im a b k = im' a b k) ->
  occlusion H W n im h w d = occlusion H W n im' h w d.
Proof.
  intros HH WW D E. unfold occlusion.
  assert (X : (d / 3 <= 2)%nat) by (apply Nat.lt_succ_r; apply Nat.div_lt_upper_bound; lia).
  assert (Y : (d mod 3 < 3)%nat) by (apply Nat.mod_upper_bound; lia).
  assert (P : forall k, (k <= n)%nat -> unfolded H W im d k h w = unfolded H W im' d k h w).
  { intros k K. unfold unfolded. apply padded_near; [exact X | lia |].
    intros a b Q. rewrite (E a b k Q K). reflexivity. }
  assert (S : near H W h w h w) by (unfold near; lia).
  assert (Q : forall k, (k <= n)%nat -> im h w k = im' h w k) by (intros k K; apply E; assumption).
  rewrite (first_min_ext _ (fun k => Rabs (unfolded H W im' d k h w - z3 (screen (im' h w 0%nat))))).
  2:{ intros k K. cbv beta. rewrite P, Q by lia. reflexivity. }
  destruct (first_min _ n) as [vq iq].
  rewrite (first_min_ext _ (fun k => Rabs (unfolded H W im' d 0 h w - z3 (screen (im' h w k))))).
  2:{ intros k K. cbv beta. rewrite P, Q by lia. reflexivity. }
  reflexivity.
Qed.

Lemma forward_local sigma bgc H W K im im' out out' h w : (h < H)%nat -> (w < W)%nat ->
  forward sigma bgc H W K im = Ok out -> forward sigma bgc H W K im' = Ok out' ->
  (forall a b k, near H W h w a b -> (k < K)%nat -> im a b k = im' a b k) ->
  forall c, out h w c = out' h w c.
Proof.
  intros HH WW E E' L c. apply forward_ok in E. destruct E as (n & norm & -> & N & _ & M & E).
  apply forward_ok in E'. destruct E' as (n' & norm' & K' & _ & _ & M' & E').
  injection K' as <-. rewrite M in M'. injection M' as <-. rewrite E, E'.
  assert (S : forall l q, splatted sigma norm H W n im h w l q = splatted sigma norm H W n im' h w l q).
  { intros l q. apply splatted_ext.
    - intros d D. apply occlusion_local; try assumption. intros a b k Q K. apply L; [exact Q|lia].
    - intros a b k d Q K D. rewrite (L a b k Q) by lia. reflexivity. }
  unfold compose, over, normalized. rewrite !S. reflexivity.
Qed.
