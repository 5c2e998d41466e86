From Coq Require Import Reals List Bool Arith Lra Lia.
From Verif Require Import Base RBase Geom Views ViewsSpec ViewsProofs ViewsAngle.
Import ListNotations.
Local Open Scope R_scope.

Lemma dot3_self v : 0 <= dot3 v v.
Proof. unfold dot3. pose proof (Rle_0_sqr (x3 v)). pose proof (Rle_0_sqr (y3 v)). pose proof (Rle_0_sqr (z3 v)). unfold Rsqr in *. lra. Qed.
Lemma norm3_sq v : norm3 v * norm3 v = dot3 v v.
Proof. unfold norm3. apply sqrt_sqrt, dot3_self. Qed.
Lemma unit_dir_dot v : dot3 (unit_dir v) (unit_dir v) = (norm3 v / Rmax (norm3 v) (/ 10 ^ 12)) * (norm3 v / Rmax (norm3 v) (/ 10 ^ 12)).
Proof.
  unfold unit_dir. set (k := / Rmax _ _). replace (norm3 v / Rmax (norm3 v) (/ 10 ^ 12)) with (norm3 v * k) by reflexivity.
  replace (norm3 v * k * (norm3 v * k)) with (k * k * (norm3 v * norm3 v)) by ring. rewrite norm3_sq. unfold dot3, scal3. cbn. ring.
Qed.
Lemma eps_pos : 0 < / 10 ^ 12.
Proof. apply Rinv_0_lt_compat, pow_lt. lra. Qed.
Lemma unit_dir_le v : dot3 (unit_dir v) (unit_dir v) <= 1.
Proof.
  rewrite unit_dir_dot. pose proof eps_pos as E. pose proof (Rmax_l (norm3 v) (/ 10 ^ 12)) as A. pose proof (Rmax_r (norm3 v) (/ 10 ^ 12)) as B.
  set (M := Rmax _ _) in *. assert (N : 0 <= norm3 v) by apply sqrt_pos.
  assert (Q : 0 <= norm3 v / M <= 1).
  { split; [apply Rmult_le_pos; [exact N|left; apply Rinv_0_lt_compat; lra]|]. apply Rmult_le_reg_r with M; [lra|]. unfold Rdiv. rewrite Rmult_assoc, Rinv_l by lra. lra. }
  replace 1 with (1 * 1) by ring. apply Rmult_le_compat; tauto.
Qed.
Lemma dot_bound a b : dot3 a a <= 1 -> dot3 b b <= 1 -> -1 <= dot3 a b <= 1.
Proof.
  intros A B. pose proof (dot3_self (V3 (x3 a + x3 b) (y3 a + y3 b) (z3 a + z3 b))) as P. pose proof (dot3_self (V3 (x3 a - x3 b) (y3 a - y3 b) (z3 a - z3 b))) as Q.
  unfold dot3 in *. cbn in P, Q. split; lra.
Qed.
Lemma ray_dot_bound c p b v : -1 <= ray_dot c p b v <= 1.
Proof. apply dot_bound; apply unit_dir_le. Qed.
Lemma angle_weight_bound m g c p b v : 0 <= m -> m ^ g <= angle_weight m g c p b v <= (1 + m) ^ g.
Proof. intros M. pose proof (ray_dot_bound c p b v). unfold angle_weight. split; apply pow_incr; lra. Qed.
Lemma angle_weight_own m g c p b : / 10 ^ 12 <= norm3 (sub3 p (c b)) -> angle_weight m g c p b b = (1 + m) ^ g.
Proof.
  intros H. pose proof eps_pos. unfold angle_weight, ray_dot. rewrite unit_dir_dot, Rmax_left by exact H. f_equal. field. lra.
Qed.
Lemma rsum_le_in {A} (f g : A -> R) l : (forall i, In i l -> f i <= g i) -> rsum (map f l) <= rsum (map g l).
Proof.
  induction l as [|a l IH]; intros H; cbn [map]; [lra|]. rewrite !rsum_cons. pose proof (H a (or_introl eq_refl)). assert (rsum (map f l) <= rsum (map g l)) by (apply IH; intros i I; apply H; right; exact I). lra.
Qed.
Lemma rsum_scale_in {A} (f : A -> R) k l : rsum (map (fun i => k * f i) l) = k * rsum (map f l).
Proof. induction l as [|a l IH]; cbn [map]; [rewrite rsum_nil; ring|]. rewrite !rsum_cons, IH. ring. Qed.
Lemma rsum_term {A} (f : A -> R) l a : (forall i, In i l -> 0 <= f i) -> In a l -> f a <= rsum (map f l).
Proof.
  induction l as [|b l IH]; intros H I; [destruct I|]. cbn [map]. rewrite rsum_cons.
  assert (P : 0 <= rsum (map f l)). { clear IH I. assert (H' : forall i, In i l -> 0 <= f i) by (intros i J; apply H; right; exact J). clear H. induction l as [|c l IH]; cbn [map]; [rewrite rsum_nil; lra|]. rewrite rsum_cons.
    pose proof (H' c (or_introl eq_refl)). assert (0 <= rsum (map f l)) by (apply IH; intros i J; apply H'; right; exact J). lra. }
  destruct I as [->|I]; [lra|]. pose proof (H b (or_introl eq_refl)). assert (f a <= rsum (map f l)) by (apply IH; [intros i J; apply H; right; exact J|exact I]). lra.
Qed.
(* a weighted mean is between bounds of the values of positive weight *)
Lemma wmean_between n (x w : channel) lo hi u : (forall v, (v < n)%nat -> 0 <= w v) -> (u < n)%nat -> 1 / 100 <= w u ->
  (forall v, (v < n)%nat -> w v = 0 \/ lo <= x v <= hi) -> lo <= wmean n x w <= hi.
Proof.
  intros W U Wu B. unfold wmean, over.
  assert (T : w u <= rsum (map w (seq 0 n))) by (apply rsum_term; [intros i I; apply in_seq in I; apply W; lia|apply in_seq; lia]).
  set (s := rsum (map w (seq 0 n))) in *. rewrite Rmax_left by lra.
  assert (L : lo * s <= rsum (map (fun v => x v * w v) (seq 0 n)) <= hi * s).
  { unfold s. rewrite <- !rsum_scale_in. split; apply rsum_le_in; intros i I; apply in_seq in I; destruct (B i ltac:(lia)) as [Z|[P Q]].
    - rewrite Z. lra. - apply Rmult_le_compat_r; [apply W; lia|exact P]. - rewrite Z. lra. - apply Rmult_le_compat_r; [apply W; lia|exact Q]. }
  split; (apply Rmult_le_reg_r with s; [lra|]); unfold Rdiv; rewrite Rmult_assoc, Rinv_l by lra; lra.
Qed.
Section angle.
Variables (n b : nat) (ex mf : bool) (m : R) (g : nat) (c : nat -> vec3) (p : vec3) (masks : nat -> bool).
Hypotheses (M : 0 <= m) (Mg : 1 / 100 <= m ^ g).
Definition wa : channel := fun v => (if masks v then 1 else 0) * angle_weight m g c p b v * view_mask b ex v.
Lemma wa_visible v : wa v = if visible ex b masks v then angle_weight m g c p b v else 0.
Proof. unfold wa, visible, view_mask. destruct (masks v), ex, (v =? b)%nat; cbn; ring. Qed.
Lemma angle_mean f y : visible_views n ex b masks <> [] -> angle_aggregate n ex mf [AVG] m g c p b [f] masks = Ok y ->
  Forall2 (fun x r => forall lo hi, (forall v, In v (visible_views n ex b masks) -> lo <= shown mf b x v <= hi) -> lo <= r <= hi) f y.
Proof.
  intros V E. destruct (visible_views n ex b masks) as [|u us] eqn:EV; [contradiction|].
  assert (Iu : In u (visible_views n ex b masks)) by (rewrite EV; left; reflexivity). rewrite <- EV. clear V EV us.
  unfold visible_views in Iu. apply filter_In in Iu. destruct Iu as [Iu Vu]. apply in_seq in Iu.
  assert (Wu : 1 / 100 <= wa u) by (rewrite wa_visible, Vu; pose proof (angle_weight_bound m g c p b u M); lra).
  assert (Act : Rltb (1 / 10000) (maximum (over n wa)) = true).
  { assert (Z : over n wa <> []) by (unfold over; destruct n; [lia|discriminate]). destruct (maximum_greatest _ Z) as [_ G].
    specialize (G (wa u)). unfold over in G at 1. destruct (Rltb_spec (1 / 10000) (maximum (over n wa))) as [_|L]; [reflexivity|]. exfalso. apply L.
    apply Rlt_le_trans with (wa u); [lra|]. apply G. apply in_map, in_seq. lia. }
  unfold angle_aggregate in E. destruct (Nat.eqb_spec n 0); [lia|]. change (fun v => (if masks v then 1 else 0) * angle_weight m g c p b v * view_mask b ex v) with wa in E.
  replace (if mf then map (map (mask_target b)) [f] else [f]) with [map (fun x => if mf then mask_target b x else x) f] in E by (destruct mf; [reflexivity|rewrite map_id; reflexivity]).
  cbn [rmap] in E. unfold reduction in E. rewrite Act in E. cbn [has existsb fn_eqb orb rbind app concat] in E. injection E as <-.
  rewrite !app_nil_r. rewrite map_map, map_map. induction f as [|x f IH]; cbn [map]; constructor; [|exact IH].
  intros lo hi H. rewrite Rmult_1_r. apply wmean_between with u; [|lia|exact Wu|].
  - intros v _. rewrite wa_visible. destruct (visible ex b masks v); [|lra]. pose proof (angle_weight_bound m g c p b v M). lra.
  - intros v L. rewrite wa_visible. destruct (visible ex b masks v) eqn:Vv; [|left; reflexivity]. right. rewrite masked_shown. apply H.
    unfold visible_views. apply filter_In. split; [apply in_seq; lia|exact Vv].
Qed.
End angle.
(* ---- values of weight 0 change nothing ---- *)
Lemma wmean_blind n (x x' w : channel) : (forall v, (v < n)%nat -> w v = 0 \/ x v = x' v) -> wmean n x w = wmean n x' w.
Proof.
  intros H. unfold wmean, over. f_equal. f_equal. apply map_ext_in. intros v I. apply in_seq in I. destruct (H v ltac:(lia)) as [Z|Z]; rewrite Z; ring.
Qed.
Lemma std_blind n (x x' w : channel) : (forall v, (v < n)%nat -> w v = 0 \/ x v = x' v) -> std_reduction n w x = std_reduction n w x'.
Proof.
  intros H. unfold std_reduction, avg_reduction. rewrite (wmean_blind n x x' w H). do 2 f_equal. apply wmean_blind. intros v L. destruct (H v L) as [Z|Z]; [left; exact Z|right; rewrite Z; reflexivity].
Qed.
Lemma reduction_blind n fns (w : channel) xs xs' : has MAX fns = false -> Forall2 (fun x x' : channel => forall v, (v < n)%nat -> w v = 0 \/ x v = x' v) xs xs' ->
  reduction n fns w xs = reduction n fns w xs'.
Proof.
  intros M F. unfold reduction. destruct fns as [|f0 fs] eqn:E; [reflexivity|]. rewrite <- E in *. clear E. rewrite M.
  assert (A : map (avg_reduction n w) xs = map (avg_reduction n w) xs') by (clear M; induction F as [|x x' l l' H _ IH]; [reflexivity|]; cbn [map]; rewrite IH; f_equal; apply wmean_blind, H).
  assert (S0 : map (std_reduction n w) xs = map (std_reduction n w) xs') by (clear M; clear A; induction F as [|x x' l l' H _ IH]; [reflexivity|]; cbn [map]; rewrite IH; f_equal; apply std_blind, H).
  assert (L : length xs = length xs') by (clear - F; induction F; cbn; congruence).
  rewrite A, S0. unfold std_avg_reduction. rewrite S0, L. reflexivity.
Qed.
Lemma angle_blind n b ex mf fns m g c p masks feats feats' : has MAX fns = false ->
  Forall2 (Forall2 (fun x x' => forall v, (v < n)%nat -> visible ex b masks v = true -> shown mf b x v = shown mf b x' v)) feats feats' ->
  angle_aggregate n ex mf fns m g c p b feats masks = angle_aggregate n ex mf fns m g c p b feats' masks.
Proof.
  intros M F. unfold angle_aggregate. destruct (n =? 0)%nat; [reflexivity|].
  change (fun v => (if masks v then 1 else 0) * angle_weight m g c p b v * view_mask b ex v) with (wa b ex m g c p masks).
  replace (rs <- rmap (reduction n fns (wa b ex m g c p masks)) (if mf then map (map (mask_target b)) feats else feats) ;; Ok (concat rs))
     with (rs <- rmap (reduction n fns (wa b ex m g c p masks)) (if mf then map (map (mask_target b)) feats' else feats') ;; Ok (concat rs)).
  - destruct F; reflexivity.
  - change (if mf then map (map (mask_target b)) feats else feats) with (prepared b mf feats). change (if mf then map (map (mask_target b)) feats' else feats') with (prepared b mf feats').
    rewrite !prepared_map. replace (rmap (reduction n fns (wa b ex m g c p masks)) (map (map (fun x : channel => if mf then mask_target b x else x)) feats'))
      with (rmap (reduction n fns (wa b ex m g c p masks)) (map (map (fun x : channel => if mf then mask_target b x else x)) feats)); [reflexivity|].
    induction F as [|f f' l l' H _ IH]; [reflexivity|]. cbn [map rmap]. rewrite IH.
    rewrite (reduction_blind n fns (wa b ex m g c p masks) _ (map (fun x : channel => if mf then mask_target b x else x) f') M); [reflexivity|].
    clear IH. induction H as [|x x' r r' Hx _ IHr]; cbn [map]; constructor; [|exact IHr]. intros v L. rewrite wa_visible, !masked_shown.
    destruct (visible ex b masks v) eqn:V; [right; apply Hx; assumption|left; reflexivity].
Qed.
