From Coq Require Import Reals List Bool Arith Lra Lia Psatz.
From Verif Require Import Base RBase Geom RayTrace RayTraceSpec RayTraceProofs RayTraceProofs2 RayTraceProofs3.
Import ListNotations.
Local Open Scope R_scope.

(* ---- a ray alone ---- *)
Section solo.
Variables (tr : tracer) (sdf : vec3 -> R).
Hypothesis Ht : 0 <= threshold tr.
Notation update := (update tr). Notation step := (step sdf). Notation back := (back tr sdf).
Fixpoint backs (fuel k : nat) (x : state) : state :=
  match fuel with O => x | S fuel => backs fuel (S k) (back k x) end.
Fixpoint solo (n : nat) (x : state) : state :=
  match n with O => update x | S n => solo n (stop (backs (line_step_iters tr) 0 (step (update x)))) end.
Lemma back_none k x : crossed (near x) || crossed (far x) = false -> back k x = x.
Proof.
  intros H. apply orb_false_elim in H. destruct H as [A B]. unfold RayTrace.back, back_side. rewrite A, B. destruct x; reflexivity.
Qed.
Lemma backs_none fuel : forall k x, crossed (near x) || crossed (far x) = false -> backs fuel k x = x.
Proof. induction fuel as [|fuel IH]; intros k x H; [reflexivity|]. cbn [backs]. rewrite back_none by exact H. apply IH, H. Qed.
Lemma back_loop_map fuel : forall k xs, back_loop tr sdf fuel k xs = map (backs fuel k) xs.
Proof.
  induction fuel as [|fuel IH]; intros k xs; cbn [back_loop]; [symmetry; apply map_id|].
  destruct (existsb _ xs) eqn:E.
  - rewrite IH, map_map. reflexivity.
  - symmetry. rewrite <- (map_id xs) at 2. apply map_ext_in. intros x X. apply (backs_none (S fuel) k x).
    destruct (crossed (near x) || crossed (far x)) eqn:F; [|reflexivity].
    rewrite <- E. symmetry. apply existsb_exists. exists x. split; assumption.
Qed.
(* what is seen of a ray *)
Definition alike (x y : state) : Prop :=
  of x = of y /\ acc (near x) = acc (near y) /\ acc (far x) = acc (far y) /\ moving (near x) = moving (near y) /\
  moving (far x) = moving (far y) /\ (meets (sphere tr) (of x) = true -> point x = point y).
Definition still (s : side) : Prop := moving s = false.
Lemma solo_still n : forall x, still (near x) -> still (far x) ->
  (meets (sphere tr) (of x) = true -> point x = at_ (of x) (acc (near x))) -> alike (update x) (solo n x).
Proof.
  unfold still. induction n as [|n IH]; intros x A B P; [repeat split; reflexivity|]. cbn [solo].
  assert (Z : (if Rleb 0 (threshold tr) then 0 else 0) = 0) by (destruct (Rleb 0 (threshold tr)); reflexivity).
  assert (E : step (update x) = State (of x) (at_ (of x) (acc (near x))) (Side (acc (near x)) false 0 0) (Side (acc (far x)) false 0 0)).
  { unfold RayTrace.step, RayTrace.update, step_side, update_side. cbn [of near far acc moving next cur]. rewrite A, B. cbn [andb]. rewrite Z.
    replace (acc (near x) + 1 * 0) with (acc (near x)) by ring. replace (acc (far x) + -1 * 0) with (acc (far x)) by ring. reflexivity. }
  rewrite backs_none by (rewrite E; unfold crossed; cbn [near far next]; destruct (Rltb_spec 0 0); [lra|reflexivity]).
  destruct (IH (stop (step (update x)))) as (I1 & I2 & I3 & I4 & I5 & I6); rewrite E in *; try reflexivity.
  unfold alike. rewrite <- I1, <- I2, <- I3, <- I4, <- I5. cbn. rewrite A, B. cbn.
  repeat split; try reflexivity. intros M. rewrite (P M). exact (I6 M).
Qed.
Lemma tracing_solo n : forall xs, Forall (Pinv tr sdf) xs -> Forall2 alike (tracing tr sdf n xs) (map (solo n) xs).
Proof.
  assert (R0 : forall xs, Forall2 alike (map update xs) (map update xs)).
  { intros xs. induction xs as [|x xs IH]; constructor; [repeat split; reflexivity|exact IH]. }
  induction n as [|n IH]; intros xs F; cbn [tracing].
  - destruct (_ && _); exact (R0 xs).
  - destruct (_ && _) eqn:E.
    + apply andb_prop in E. destruct E as [E1 E2]. apply negb_true_iff in E1, E2.
      clear IH R0. induction xs as [|x xs IHx]; [constructor|]. cbn [map existsb] in E1, E2.
      apply orb_false_elim in E1, E2. inversion F as [|? ? P F']. subst. cbn [map].
      constructor; [|apply IHx; [exact F'|apply E1|apply E2]].
      pose proof (PQ tr sdf Ht x P) as Q. cbn [solo].
      (* one more round changes nothing *)
      destruct Q as ((C1 & _ & _) & _ & Un & Uf). destruct E1 as [E1 _], E2 as [E2 _].
      unfold used in Un, Uf. rewrite E1 in Un. rewrite E2 in Uf.
      assert (E : step (update x) = State (of x) (at_ (of x) (acc (near x))) (Side (acc (near x)) false 0 0) (Side (acc (far x)) false 0 0)).
      { unfold RayTrace.step, step_side. rewrite E1, E2, Un, Uf. cbn [RayTrace.update of near far acc update_side].
        replace (acc (near x) + 1 * 0) with (acc (near x)) by ring. replace (acc (far x) + -1 * 0) with (acc (far x)) by ring. reflexivity. }
      rewrite E. rewrite backs_none by (unfold crossed; cbn [near far next]; destruct (Rltb_spec 0 0); [lra|reflexivity]).
      set (y := stop _).
      assert (Y : alike (update y) (solo n y)) by (apply solo_still; reflexivity).
      destruct Y as (Y1 & Y2 & Y3 & Y4 & Y5 & Y6). unfold alike. rewrite <- Y1, <- Y2, <- Y3, <- Y4, <- Y5.
      repeat split; try reflexivity.
      * exact E1.
      * exact E2.
      * intros M. rewrite (C1 M). exact (Y6 M).
    + rewrite back_loop_map, !map_map.
      assert (F' : Forall (Pinv tr sdf) (map (fun x => stop (backs (line_step_iters tr) 0 (step (update x)))) xs)).
      { apply (map_inv (Pinv tr sdf) (Pinv tr sdf) _ xs); [|exact F]. intros x P. apply MP.
        assert (G : forall fuel k z, Minv tr sdf z -> Minv tr sdf (backs fuel k z)).
        { induction fuel as [|fuel IHf]; intros k z Z; [exact Z|]. cbn [backs]. apply IHf, MM, Z. }
        apply G, QM, PQ; assumption. }
      specialize (IH _ F'). rewrite map_map in IH. exact IH.
Qed.
Lemma start_P r : Pinv tr sdf (start tr sdf r).
Proof. apply P_start, sphere_ordered. Qed.
End solo.

(* ---- forward ---- *)
Section forward.
Variables (argmin : list R -> nat) (tr : tracer) (sdf : vec3 -> R).
Hypotheses (Ha : picks_minimum argmin) (Hn : (2 <= n_steps tr)%nat) (Ht : 0 <= threshold tr).
Notation f r t := (sdf (at_ r t)).
Notation traced_ray r := (solo tr sdf (tracing_iters tr) (start tr sdf r)).
Definition finish (training : bool) (us : list R) (x : state) : result (vec3 * bool * R) :=
  out <- settle argmin tr sdf training x ;; if training then refine argmin tr sdf us x out else Ok out.
(* the result of a ray alone *)
Lemma alike_sym x y : alike tr x y -> alike tr y x.
Proof. intros (A & B & C & D & E & F). rewrite A in F. repeat split; auto. intros M. symmetry. apply F, M. Qed.
Lemma nth_forall2 {A B} (P : A -> B -> Prop) l m : Forall2 P l m -> forall k b, nth_error m k = Some b -> exists a, nth_error l k = Some a /\ P a b.
Proof.
  induction 1 as [|a b l m H _ IH]; intros k c K; [destruct k; discriminate|]. destruct k as [|k]; cbn in K.
  - injection K as <-. exists a. split; [reflexivity|exact H].
  - exact (IH k c K).
Qed.
Lemma rmap_nth {A B} (g : A -> result B) l : forall outs k a, rmap g l = Ok outs -> nth_error l k = Some a -> exists b, nth_error outs k = Some b /\ g a = Ok b.
Proof.
  induction l as [|x l IH]; intros outs k a E K; [destruct k; discriminate|]. cbn in E.
  destruct (g x) as [b|] eqn:G; [|discriminate]. cbn in E. destruct (rmap g l) as [bs|] eqn:M; [|discriminate]. cbn in E.
  injection E as <-. destruct k as [|k]; cbn in K; [injection K as <-; exists b; split; [reflexivity|exact G]|].
  exact (IH bs k a eq_refl K).
Qed.
Lemma forward_nth training us rays outs k r : forward argmin tr sdf training us rays = Ok outs -> nth_error rays k = Some r ->
  exists x out, nth_error outs k = Some out /\ of x = r /\ In x (tracing tr sdf (tracing_iters tr) (map (start tr sdf) rays)) /\
    finish training us x = Ok out /\ alike tr x (traced_ray r).
Proof.
  intros E K. unfold forward in E.
  assert (F : Forall (Pinv tr sdf) (map (start tr sdf) rays)).
  { apply Forall_forall. intros x X. apply in_map_iff in X. destruct X as (y & <- & _). apply start_P. }
  pose proof (tracing_solo tr sdf Ht (tracing_iters tr) _ F) as T. rewrite map_map in T.
  destruct (nth_forall2 _ _ _ T k (traced_ray r)) as (x & X & Al).
  { apply (map_nth_error (fun x => solo tr sdf (tracing_iters tr) (start tr sdf x))), K. }
  destruct (rmap_nth _ _ outs k x E X) as (out & O & G).
  exists x, out. split; [exact O|]. split.
  - pose proof (tracing_of tr sdf (tracing_iters tr) (map (start tr sdf) rays)) as W. rewrite start_of in W.
    apply (map_nth_error of) in X. rewrite W, K in X. injection X as X. symmetry. exact X.
  - split; [exact (nth_error_In _ _ X)|]. split; [exact G|exact Al].
Qed.
Lemma found_alike training us x y p n z p' n' z' : alike tr x y -> finish training us x = Ok (p, n, z) -> finish training us y = Ok (p', n', z') ->
  n = n' /\ z = z' /\ (meets (sphere tr) (of x) = true -> p = p').
Proof.
  intros (A & B & C & D & E & F) X Y. unfold finish, settle in X, Y. rewrite <- A, <- B, <- C, <- D in Y.
  destruct (moving (near x)) eqn:M.
  - destruct (ray_sampler argmin tr sdf training (of x) (acc (near x)) (acc (far x))) as [[[q m] w]|]; [|discriminate]. cbn [rbind] in X, Y.
    destruct training.
    + unfold refine in X, Y. rewrite <- A, <- D in Y. rewrite ?M in Y. rewrite ?M in X. cbn [negb andb orb] in X, Y. rewrite !andb_false_r in X, Y. cbn [orb andb] in X, Y. rewrite X in Y.
      assert (Q : (p, n, z) = (p', n', z')) by congruence. split; [congruence|]. split; [congruence|]. intros _. congruence.
    + rewrite X in Y. split; [congruence|]. split; [congruence|]. intros _. congruence.
  - cbn [rbind] in X, Y. destruct training.
    + unfold refine in X, Y. rewrite <- A, <- D in Y. rewrite ?M in Y. rewrite ?M in X.
      destruct (meets (sphere tr) (of x)) eqn:Me.
      * rewrite (F eq_refl) in X. rewrite X in Y. split; [congruence|]. split; [congruence|]. intros _. congruence.
      * destruct (_ && negb false).
        -- rewrite X in Y. split; [congruence|]. split; [congruence|]. intros; discriminate.
        -- rewrite !andb_false_r in X, Y. split; [congruence|]. split; [congruence|]. intros; discriminate.
    + split; [congruence|]. split; [congruence|]. intros Me. rewrite (F Me) in X. congruence.
Qed.
Lemma independent training us rays outs k r p n z : forward argmin tr sdf training us rays = Ok outs -> nth_error rays k = Some r ->
  nth_error outs k = Some (p, n, z) -> forall p' n' z', forward argmin tr sdf training us [r] = Ok [(p', n', z')] ->
  n = n' /\ z = z' /\ (meets (sphere tr) r = true -> p = p').
Proof.
  intros E K O p' n' z' E'. destruct (forward_nth _ _ _ _ _ _ E K) as (x & o & O' & X & _ & G & Al).
  rewrite O in O'. injection O' as <-.
  destruct (forward_nth _ _ _ _ 0%nat r E' eq_refl) as (y & o & O' & Y & _ & G' & Al').
  cbn in O'. injection O' as <-.
  assert (XY : alike tr x y).
  { destruct Al as (A1 & A2 & A3 & A4 & A5 & A6), Al' as (B1 & B2 & B3 & B4 & B5 & B6). unfold alike. rewrite A1, A2, A3, A4, A5, B1, B2, B3, B4, B5.
    repeat split; try reflexivity. intros M. rewrite <- A1 in M. rewrite (A6 M). rewrite B6; [reflexivity|]. rewrite B1, <- A1. exact M. }
  rewrite <- X. exact (found_alike training us x y p n z p' n' z' XY G G').
Qed.
End forward.
