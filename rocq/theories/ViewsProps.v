(* C93: pooling the features of the source views takes the statistics of the visible views. *)
From Coq Require Import Reals List Bool Arith Lra Lia.
From Verif Require Import Base RBase Geom Views ViewsSpec ViewsProofs ViewsAngle ViewsAngleProofs.
Import ListNotations.
Local Open Scope R_scope.

(* Each feature is pooled to the statistics of its values in the visible views: nothing else counts.  The maximum is right
   if all views are visible or a visible value is not negative. *)
Theorem views_pooled n b exclude mask fns feats masks : fns <> [] -> feats <> [] -> visible_views n exclude b masks <> [] ->
  (has MAX fns = true -> forall f c, In f feats -> In c f ->
     (exists v, In v (visible_views n exclude b masks) /\ 0 <= shown mask b c v) \/ visible_views n exclude b masks = seq 0 n) ->
  exists ys, aggregate n exclude mask fns b feats masks = Ok (concat ys) /\
    Forall2 (fun f y => pooled fns (map (fun c => map (shown mask b c) (visible_views n exclude b masks)) f) y) feats ys.
Proof.
  intros F G V H. assert (N : (0 < n)%nat) by (destruct n; [exfalso; apply V; reflexivity|lia]). apply aggregate_pooled; assumption.
Qed.
(* A point no view sees has only zeros. *)
Theorem views_hidden n b exclude mask fns feats masks : (0 < n)%nat -> fns <> [] -> feats <> [] -> visible_views n exclude b masks = [] ->
  aggregate n exclude mask fns b feats masks = Ok (repeat 0 (fold_right Nat.add 0%nat (map (fun f => width fns (length f)) feats))).
Proof. intros N F G V. apply aggregate_hidden; assumption. Qed.
(* Without the maximum, values of views that are not visible change nothing. *)
Theorem views_blind n b exclude mask fns feats feats' masks : (0 < n)%nat -> fns <> [] -> has MAX fns = false ->
  Forall2 (Forall2 (fun c c' => forall v, (v < n)%nat -> visible exclude b masks v = true -> shown mask b c v = shown mask b c' v)) feats feats' ->
  aggregate n exclude mask fns b feats masks = aggregate n exclude mask fns b feats' masks.
Proof. intros N F M E. apply aggregate_blind; assumption. Qed.
(* With the maximum they may: a hidden 1 raises the maximum of a visible -100 to -10. *)
Theorem views_max_refuted : exists n b fns feats masks, has MAX fns = true /\ visible_views n false b masks = [0%nat] /\
  feats = [[fun v => if (v =? 0)%nat then -100 else 1]] /\ aggregate n false false fns b feats masks = Ok [-10].
Proof.
  exists 2%nat, 0%nat, [MAX], [[fun v => if (v =? 0)%nat then -100 else 1]], (fun v => (v =? 0)%nat). do 3 (split; [reflexivity|]).
  unfold aggregate, reduction, max_reduction, over, maximum, view_mask. cbn.
  rewrite (Rmax_left 1 (-100)) by lra. rewrite (Rabs_right 1) by lra.
  match goal with |- context [Rltb ?x ?y] => destruct (Rltb_spec x y) as [L|L] end.
  - f_equal. f_equal. rewrite Rmax_left by lra. lra.
  - exfalso. apply L. rewrite Rmax_right by lra. lra.
Qed.
(* The reported dimension is that of the output for one feature and distinct functions. *)
Theorem views_dim n b exclude mask fns f masks y : NoDup fns -> aggregate n exclude mask fns b [f] masks = Ok y -> fns <> [] -> (0 < n)%nat ->
  length y = aggregated_dim fns [length f].
Proof.
  intros D E F N. rewrite (aggregate_width n b exclude mask fns masks N [f] y ltac:(discriminate) E). apply width_dim; assumption.
Qed.
(* It is not for two features with the average deviation, nor for functions listed twice. *)
Theorem views_dim_refuted : forall n b exclude mask (c : channel) masks, (0 < n)%nat ->
  (forall y, aggregate n exclude mask [STD_AVG] b [[c]; [c]] masks = Ok y -> length y = 2%nat) /\ aggregated_dim [STD_AVG] [1; 1]%nat = 1%nat /\
  (forall y, aggregate n exclude mask [AVG; AVG] b [[c]] masks = Ok y -> length y = 1%nat) /\ aggregated_dim [AVG; AVG] [1]%nat = 2%nat.
Proof.
  intros n b ex mf c masks N. split; [|split; [reflexivity|split; [|reflexivity]]]; intros y E.
  - exact (aggregate_width n b ex mf [STD_AVG] masks N [[c]; [c]] y ltac:(discriminate) E).
  - exact (aggregate_width n b ex mf [AVG; AVG] masks N [[c]] y ltac:(discriminate) E).
Qed.

(* Weighted by the angles of the rays, every weight is between those of opposite and of equal rays, the target's own is the greatest. *)
Theorem views_angle_weights m g centres p b v : 0 <= m -> m ^ g <= angle_weight m g centres p b v <= (1 + m) ^ g /\
  (/ 10 ^ 12 <= norm3 (sub3 p (centres b)) -> angle_weight m g centres p b v <= angle_weight m g centres p b b /\ angle_weight m g centres p b b = (1 + m) ^ g).
Proof.
  intros M. pose proof (angle_weight_bound m g centres p b v M) as B. split; [exact B|]. intros H. rewrite (angle_weight_own m g centres p b H). split; [lra|reflexivity].
Qed.
(* The weighted mean is between any bounds of the values in the visible views. *)
Theorem views_angle_mean n b exclude mask m g centres p f masks y : 0 <= m -> 1 / 100 <= m ^ g -> visible_views n exclude b masks <> [] ->
  angle_aggregate n exclude mask [AVG] m g centres p b [f] masks = Ok y ->
  Forall2 (fun c r => forall lo hi, (forall v, In v (visible_views n exclude b masks) -> lo <= shown mask b c v <= hi) -> lo <= r <= hi) f y.
Proof. intros M G V E. eapply angle_mean; eassumption. Qed.
(* Without the maximum, values of views that are not visible change nothing here either. *)
Theorem views_angle_blind n b exclude mask fns m g centres p feats feats' masks : has MAX fns = false ->
  Forall2 (Forall2 (fun c c' => forall v, (v < n)%nat -> visible exclude b masks v = true -> shown mask b c v = shown mask b c' v)) feats feats' ->
  angle_aggregate n exclude mask fns m g centres p b feats masks = angle_aggregate n exclude mask fns m g centres p b feats' masks.
Proof. exact (angle_blind n b exclude mask fns m g centres p masks feats feats'). Qed.
(* The weighted maximum is not between such bounds: of a single 1 it is 2.1, with the default settings. *)
Theorem views_angle_max_refuted : angle_aggregate 1 false false [MAX] (1 / 10) 1 (fun _ => V3 0 0 0) (V3 0 0 1) 0 [[fun _ => 1]] (fun _ => true) = Ok [21 / 10].
Proof.
  unfold angle_aggregate. cbn [Nat.eqb rmap]. unfold reduction.
  assert (N : norm3 (sub3 (V3 0 0 1) (V3 0 0 0)) = 1) by (unfold norm3, dot3, sub3; cbn; replace (_ + _) with 1 by ring; apply sqrt_1).
  assert (H : / 10 ^ 12 <= norm3 (sub3 (V3 0 0 1) ((fun _ : nat => V3 0 0 0) 0%nat))) by (cbv beta; rewrite N, <- Rinv_1; apply Rinv_le_contravar; lra).
  pose proof (angle_weight_own (1 / 10) 1 (fun _ => V3 0 0 0) (V3 0 0 1) 0 H) as Q. unfold max_reduction, over, maximum. cbn [seq map fold_right]. rewrite Q.
  cbn [has existsb fn_eqb orb app map rbind concat]. unfold view_mask. cbn [Nat.eqb]. rewrite Rabs_right by lra.
  match goal with |- context [Rltb ?x ?y] => destruct (Rltb_spec x y) as [L|L] end; [|exfalso; apply L; lra]. f_equal. f_equal. lra.
Qed.
(* two views at right angles, the default settings *)
Example views_angle_case : 1 / 100 <= (1 / 10) ^ 1 /\ visible_views 2 false 0 (fun _ => true) = [0; 1]%nat /\
  angle_weight (1 / 10) 1 (fun v => if (v =? 0)%nat then V3 0 0 0 else V3 1 0 1) (V3 0 0 1) 0 1 = 6 / 10.
Proof.
  split; [lra|]. split; [reflexivity|]. unfold angle_weight, ray_dot, unit_dir, dot3, scal3, sub3. cbn [Nat.eqb x3 y3 z3]. ring_simplify. lra.
Qed.

(* three views, the target excluded and one not valid *)
Example views_case : visible_views 4 true 1 (fun v => negb (v =? 3)%nat) = [0; 2]%nat /\ shown true 1 (fun v => INR v) 2 = 2 /\ mean [0; 2] = 1.
Proof. split; [reflexivity|]. unfold shown, mean. cbn. split; lra. Qed.
(* the hypotheses are met, the hidden views differ *)
Example views_blind_case : Forall2 (Forall2 (fun c c' => forall v, (v < 4)%nat -> visible true 1 (fun v => negb (v =? 3)%nat) v = true -> shown false 1 c v = shown false 1 c' v))
  [[fun v => INR v]] [[fun v => if (v =? 3)%nat then 7 else INR v]].
Proof.
  constructor; [|constructor]. constructor; [|constructor]. intros v L V. unfold shown, visible in *. cbn. destruct (v =? 3)%nat; [discriminate V|reflexivity].
Qed.

(* the maximum and the mean of what the two visible views show *)
Example views_pooled_case : aggregate 4 true false [AVG; MAX] 1 [[fun v => INR v]] (fun v => negb (v =? 3)%nat) = Ok [1; 2].
Proof.
  destruct (views_pooled 4 1 true false [AVG; MAX] [[fun v => INR v]] (fun v => negb (v =? 3)%nat)) as (ys & -> & F); try discriminate.
  - intros _ f c [<-|[]] [<-|[]]. left. exists 2%nat. split; [cbn; auto|]. unfold shown. cbn. lra.
  - inversion F as [|f y fs ys' (m & Y & M) F0]; subst. inversion F0; subst. cbn in M. inversion M as [|m0 l ms ls [I G] M0]; subst. inversion M0; subst.
    unfold shown in *. cbn in I, G |- *. unfold mean. cbn. f_equal. f_equal; [lra|]. f_equal. destruct I as [<-|[<-|[]]]; [|lra]. specialize (G 2 ltac:(right; left; lra)). lra.
Qed.

Print Assumptions views_pooled.
Print Assumptions views_hidden.
Print Assumptions views_blind.
Print Assumptions views_max_refuted.
Print Assumptions views_dim.
Print Assumptions views_dim_refuted.
Print Assumptions views_angle_weights.
Print Assumptions views_angle_mean.
Print Assumptions views_angle_max_refuted.
Print Assumptions views_angle_blind.
