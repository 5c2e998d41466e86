(* Witnesses. *)
From Coq Require Import Reals List Bool Arith Lra Lia.
From Verif Require Import Base RBase Geom RayTrace RayTraceSpec RayTraceProofs RayTraceProofs2.
Import ListNotations.
Local Open Scope R_scope.

Fixpoint first_min (l : list R) : nat :=
  match l with [] => 0 | x :: r => if Rleb x (nth (first_min r) r x) then 0 else S (first_min r) end.
Lemma first_min_picks : picks_minimum first_min.
Proof.
  intros l. induction l as [|x r IH]; intros N; [contradiction|]. cbn [first_min].
  destruct r as [|y r].
  - cbn [nth first_min]. destruct (Rleb_spec x x); [|lra]. split; [cbn; lia|]. intros z [<-|[]]. cbn. lra.
  - destruct (IH ltac:(discriminate)) as [A B]. set (i := first_min (y :: r)) in *.
    rewrite (nth_indep (y :: r) x 0 A). destruct (Rleb_spec x (nth i (y :: r) 0)) as [L|L].
    + split; [cbn; lia|]. intros z [<-|Z]; cbn [nth]; [lra|]. pose proof (B z Z). lra.
    + split; [cbn [length] in *; lia|]. intros z [<-|Z]; change (nth (S i) (x :: y :: r) 0) with (nth i (y :: r) 0); [lra|exact (B z Z)].
Qed.
Definition plane (p : vec3) : R := z3 p.
Lemma plane_distance : distance_like plane.
Proof.
  intros p q. unfold plane, length3. cbn [x3 y3 z3]. rewrite <- sqrt_Rsqr_abs. apply sqrt_le_1_alt. unfold Rsqr.
  pose proof (Rle_0_sqr (x3 p - x3 q)). pose proof (Rle_0_sqr (y3 p - y3 q)). unfold Rsqr in *. lra.
Qed.
Definition down : ray := Ray (V3 0 0 2) (V3 0 0 (-1)) true.
Definition aside : ray := Ray (V3 0 0 2) (V3 1 0 0) true.
Lemma down_unit : unit_ray down.
Proof. unfold unit_ray, length3. cbn. replace (_ + _) with 1 by ring. apply sqrt_1. Qed.
Lemma aside_unit : unit_ray aside.
Proof. unfold unit_ray, length3. cbn. replace (_ + _) with 1 by ring. apply sqrt_1. Qed.
Lemma down_under : under_sqrt 1 down = 1.
Proof. unfold under_sqrt. rewrite norm3_sq. unfold dot3, down. cbn. ring. Qed.
Lemma down_meets : meets 1 down = true.
Proof. unfold meets. rewrite down_under. apply Rltb_true. lra. Qed.
Lemma down_segment : sphere_intersection 1 down = (1, 3).
Proof.
  unfold sphere_intersection. rewrite down_meets, down_under, sqrt_1. unfold dot3, down. cbn.
  f_equal; rewrite Rmax_left by lra; ring.
Qed.
Lemma aside_misses : meets 1 aside = false.
Proof. unfold meets, under_sqrt. rewrite norm3_sq. unfold dot3, aside. cbn. apply Rltb_false. lra. Qed.
(* a tracer of one step, and a constant function *)
Definition small : tracer := Tracer 1 (1/2) (1/2) 1 1 2 1.
Definition far_away (_ : vec3) : R := 1.
Lemma aside_start : start small far_away aside = State aside zero3 (Side 0 false 0 0) (Side 0 false 0 0).
Proof. unfold start. cbn [sphere small]. rewrite aside_misses. destruct (sphere_intersection 1 aside). reflexivity. Qed.
Lemma down_start : start small far_away down = State down (at_ down 1) (Side 1 true 1 0) (Side 3 true 1 0).
Proof. unfold start. cbn [sphere small]. rewrite down_meets, down_segment. reflexivity. Qed.
Lemma still_update a : update_side small (Side a false 0 0) = Side a false 0 0.
Proof. unfold update_side. cbn [moving acc next small threshold andb]. destruct (Rleb 0 (1/2)); reflexivity. Qed.
Lemma moving_update a c : update_side small (Side a true 1 c) = Side a true 1 1.
Proof.
  unfold update_side. cbn [moving acc next small threshold andb]. destruct (Rleb_spec 1 (1/2)); [lra|]. destruct (Rltb_spec (1/2) 1); [reflexivity|lra].
Qed.
Lemma alone : exists n z, forward first_min small far_away false [] [aside] = Ok [(zero3, n, z)].
Proof.
  unfold forward. change (tracing_iters small) with 1%nat. cbn [map tracing]. rewrite aside_start. unfold update. cbn [of point near far].
  rewrite !still_update. cbn [existsb moving near far orb negb andb rmap rbind settle]. eexists. eexists. reflexivity.
Qed.
Lemma accompanied : exists n z o, forward first_min small far_away false [] [aside; down] = Ok [(V3 0 0 2, n, z); o].
Proof.
  unfold forward. change (tracing_iters small) with 1%nat. cbn [map tracing]. rewrite aside_start, down_start. unfold update. cbn [of point near far].
  rewrite !still_update, !moving_update. cbn [existsb moving near far orb negb andb map]. change (line_step_iters small) with 1%nat.
  unfold step, step_side. cbn [of near far acc moving next cur back_loop existsb].
  unfold crossed. cbn [near far next]. repeat match goal with |- context [far_away ?p] => change (far_away p) with 1 end.
  destruct (Rltb_spec 0 0); [lra|]. destruct (Rltb_spec 1 0); [lra|]. cbn [orb].
  cbn [map]. unfold stop, stop_side. cbn [of point near far acc moving next cur andb].
  rewrite !still_update. cbn [existsb moving near far orb].
  replace (0 + 1 * 0) with 0 by ring. replace (0 + -1 * 0) with 0 by ring.
  replace (1 + 1 * 1) with 2 by ring. replace (3 + -1 * 1) with 2 by ring.
  destruct (Rltb_spec 2 2); [lra|].
  cbn [andb]. rewrite ?still_update.
  assert (U : update_side small (Side 2 false 1 1) = Side 2 false 1 0).
  { unfold update_side, far_away. cbn [moving acc next small threshold andb]. destruct (Rleb 0 (1/2)); reflexivity. }
  rewrite U. cbn [moving negb andb orb rmap rbind settle near far point acc of].
  eexists. eexists. eexists. unfold at_, aside, add3, scal3. cbn [origin direction x3 y3 z3].
  replace (0 + 0 * 1) with 0 by ring. replace (0 + 0 * 0) with 0 by ring. replace (2 + 0 * 0) with 2 by ring. reflexivity.
Qed.
