From Coq Require Import Reals List Bool Arith Lra Lia.
From Verif Require Import Base RBase Geom RayTrace RayTraceSpec.
Import ListNotations.
Local Open Scope R_scope.

Lemma along_at r t : at_ r t = along r t.
Proof. reflexivity. Qed.

Section trace.
Variables (tr : tracer) (sdf : vec3 -> R).
Notation tracing := (tracing tr sdf). Notation start := (start tr sdf). Notation update := (update tr).
Notation step := (step sdf). Notation back := (back tr sdf). Notation back_loop := (back_loop tr sdf).
Notation f r t := (sdf (at_ r t)).

(* ---- an invariant of the loop ---- *)
Lemma back_loop_inv (P : state -> Prop) : (forall k x, P x -> P (back k x)) ->
  forall fuel k xs, Forall P xs -> Forall P (back_loop fuel k xs).
Proof.
  intros H fuel. induction fuel as [|fuel IH]; intros k xs F; [exact F|]. cbn [RayTrace.back_loop].
  destruct (existsb _ xs); [|exact F]. apply IH. apply Forall_forall. intros y Y. apply in_map_iff in Y.
  destruct Y as (x & <- & X). apply H. rewrite Forall_forall in F. exact (F x X).
Qed.
Lemma map_inv (P Q : state -> Prop) g xs : (forall x, P x -> Q (g x)) -> Forall P xs -> Forall Q (map g xs).
Proof.
  intros H F. apply Forall_forall. intros y Y. apply in_map_iff in Y. destruct Y as (x & <- & X).
  apply H. rewrite Forall_forall in F. exact (F x X).
Qed.
Lemma tracing_inv (P Q M : state -> Prop) : (forall x, P x -> Q (update x)) -> (forall x, Q x -> M (step x)) ->
  (forall k x, M x -> M (back k x)) -> (forall x, M x -> P (stop x)) ->
  forall n xs, Forall P xs -> Forall Q (tracing n xs).
Proof.
  intros HU HS HB HT n. induction n as [|n IH]; intros xs F; cbn [RayTrace.tracing].
  - destruct (_ && _); exact (map_inv P Q _ xs HU F).
  - destruct (_ && _); [exact (map_inv P Q _ xs HU F)|]. apply IH. apply (map_inv M P _ _ HT).
    apply back_loop_inv; [exact HB|]. apply (map_inv Q M _ _ HS). exact (map_inv P Q _ xs HU F).
Qed.
(* the rays stay in their places *)
Lemma back_loop_of fuel : forall k xs, map of (back_loop fuel k xs) = map of xs.
Proof.
  induction fuel as [|fuel IH]; intros k xs; [reflexivity|]. cbn [RayTrace.back_loop]. destruct (existsb _ xs); [|reflexivity].
  rewrite IH, map_map. reflexivity.
Qed.
Lemma tracing_of n : forall xs, map of (tracing n xs) = map of xs.
Proof.
  induction n as [|n IH]; intros xs; cbn [RayTrace.tracing]; destruct (_ && _); try (rewrite map_map; reflexivity).
  rewrite IH, map_map.
  transitivity (map of (back_loop (line_step_iters tr) 0 (map step (map update xs)))); [reflexivity|].
  rewrite back_loop_of, !map_map. reflexivity.
Qed.
Lemma start_of rays : map of (map start rays) = rays.
Proof.
  transitivity (map (fun r : ray => r) rays); [|apply map_id].
  rewrite map_map. apply map_ext. intros r. unfold RayTrace.start. destruct (sphere_intersection _ _), (meets _ _); reflexivity.
Qed.

(* ---- what is always so ---- *)
Hypothesis Ht : 0 <= threshold tr.
Definition common (x : state) : Prop :=
  (meets (sphere tr) (of x) = true -> point x = at_ (of x) (acc (near x))) /\
  (moving (near x) = false -> f (of x) (acc (near x)) <= threshold tr \/
     (acc (far x) <= acc (near x) /\ moving (far x) = false)) /\
  (meets (sphere tr) (of x) = false -> moving (near x) = false /\ moving (far x) = false /\ acc (near x) = 0 /\ acc (far x) = 0).
Definition ordered (x : state) : Prop := moving (near x) = true -> acc (near x) <= acc (far x).
Definition valued (r : ray) (s : side) : Prop := moving s = true -> next s = f r (acc s).
Definition used (r : ray) (s : side) : Prop :=
  if moving s then threshold tr < f r (acc s) /\ cur s = f r (acc s) else cur s = 0.
Definition quiet (s : side) : Prop := moving s = false -> next s = 0 /\ cur s = 0.

Lemma update_used r s : valued r s -> used r (update_side tr s).
Proof.
  intros V. unfold used, update_side, valued in *. cbn [moving cur acc next].
  destruct (moving s); cbn [andb].
  - rewrite (V eq_refl). destruct (Rleb_spec (f r (acc s)) (threshold tr)) as [A|A].
    + destruct (Rltb_spec (threshold tr) 0); [lra|]. reflexivity.
    + destruct (Rltb_spec (threshold tr) (f r (acc s))); [|lra]. split; [exact r0|reflexivity].
  - destruct (Rleb_spec 0 (threshold tr)); reflexivity.
Qed.
Lemma update_stays s : moving (update_side tr s) = true -> moving s = true.
Proof. cbn. intros H. apply andb_prop in H. apply H. Qed.
Lemma update_off r s : valued r s -> moving s = true -> moving (update_side tr s) = false -> f r (acc s) <= threshold tr.
Proof.
  intros V M. cbn. rewrite M, (V M). cbn [andb]. destruct (Rleb_spec (f r (acc s)) (threshold tr)) as [A|A]; [intros _; exact A|].
  destruct (Rltb_spec (threshold tr) (f r (acc s))); [discriminate|intros _; lra].
Qed.
Definition Pinv x := common x /\ ordered x /\ valued (of x) (near x) /\ valued (of x) (far x).
Definition Qinv x := common x /\ ordered x /\ used (of x) (near x) /\ used (of x) (far x).
Definition Minv x := common x /\ (valued (of x) (near x) /\ quiet (near x)) /\ (valued (of x) (far x) /\ quiet (far x)).
Lemma P_start r : fst (sphere_intersection (sphere tr) r) <= snd (sphere_intersection (sphere tr) r) -> Pinv (start r).
Proof.
  unfold Pinv, common, ordered, valued, RayTrace.start. destruct (sphere_intersection (sphere tr) r) as [t0 t1]. cbn [fst snd].
  intros L. destruct (meets (sphere tr) r) eqn:M; cbn [of point near far acc moving next].
  - rewrite M. repeat split; try discriminate; try reflexivity. intros _. exact L.
  - rewrite M. repeat split; try discriminate. intros _. right. split; [lra|reflexivity].
Qed.
Lemma PQ x : Pinv x -> Qinv (update x).
Proof.
  intros ((C1 & C2 & C3) & O & Vn & Vf). unfold Qinv. cbn [of near far RayTrace.update].
  split; [|split; [|split; apply update_used; assumption]].
  - split; [exact C1|]. split.
    + intros N. cbn [near far of RayTrace.update] in *. change (acc (update_side tr (near x))) with (acc (near x)). change (acc (update_side tr (far x))) with (acc (far x)).
      destruct (moving (near x)) eqn:E.
      * left. exact (update_off _ _ Vn E N).
      * destruct (C2 eq_refl) as [A|[A B]]; [left; exact A|right]. split; [exact A|]. cbn. rewrite B. reflexivity.
    + intros M. destruct (C3 M) as (A & B & C & D). cbn. rewrite A, B. repeat split; assumption.
  - intros N. apply O, (update_stays _ N).
Qed.
Lemma step_side_frozen r sg s : used r s -> moving s = false -> acc (step_side sdf r sg s) = acc s.
Proof. unfold used. intros U M. rewrite M in U. cbn. rewrite U. ring. Qed.
Lemma step_side_ok r sg s : used r s -> valued r (step_side sdf r sg s) /\ quiet (step_side sdf r sg s).
Proof.
  unfold used, valued, quiet. cbn. intros U. destruct (moving s).
  - split; [reflexivity|discriminate].
  - split; [discriminate|]. intros _. split; [reflexivity|exact U].
Qed.
Lemma QM x : Qinv x -> Minv (step x).
Proof.
  intros ((C1 & C2 & C3) & O & Un & Uf). split; [|split; apply step_side_ok; assumption].
  split; [|split].
  - intros _. reflexivity.
  - intros N. change (moving (near x) = false) in N. cbn [near far RayTrace.step of].
    rewrite (step_side_frozen _ _ _ Un N). destruct (C2 N) as [A|[A B]]; [left; exact A|right].
    rewrite (step_side_frozen _ _ _ Uf B). split; [exact A|exact B].
  - intros M. destruct (C3 M) as (A & B & C & D). cbn [near far RayTrace.step].
    rewrite (step_side_frozen _ _ _ Un A), (step_side_frozen _ _ _ Uf B). repeat split; assumption.
Qed.
Lemma back_side_quiet r sg k s : quiet s -> moving s = false -> back_side tr sdf r sg k s = s.
Proof.
  intros Q M. destruct (Q M) as [A _]. unfold back_side, crossed. rewrite A. destruct (Rltb_spec 0 0); [lra|reflexivity].
Qed.
Lemma back_moving r sg k s : moving (back_side tr sdf r sg k s) = moving s.
Proof. unfold back_side. destruct (crossed s); reflexivity. Qed.
Lemma back_side_ok r sg k s : valued r s /\ quiet s -> valued r (back_side tr sdf r sg k s) /\ quiet (back_side tr sdf r sg k s).
Proof.
  intros [V Q]. destruct (moving s) eqn:M.
  - unfold back_side. destruct (crossed s); [|split; assumption]. split; [intros _; reflexivity|]. intros E. cbn in E. congruence.
  - rewrite back_side_quiet by assumption. split; assumption.
Qed.
Lemma MM k x : Minv x -> Minv (back k x).
Proof.
  intros ((C1 & C2 & C3) & Vn & Vf). split; [|split; apply back_side_ok; assumption].
  split; [|split].
  - intros M. cbn [point near RayTrace.back of] in *. unfold back_side. destruct (crossed (near x)); [reflexivity|exact (C1 M)].
  - intros N. cbn [near far RayTrace.back of] in *. rewrite back_moving in N. rewrite (back_side_quiet _ _ _ _ (proj2 Vn) N).
    destruct (C2 N) as [A|[A B]]; [left; exact A|right]. rewrite (back_side_quiet _ _ _ _ (proj2 Vf) B). split; assumption.
  - intros M. destruct (C3 M) as (A & B & C & D). cbn [near far RayTrace.back].
    rewrite (back_side_quiet _ _ _ _ (proj2 Vn) A), (back_side_quiet _ _ _ _ (proj2 Vf) B). repeat split; assumption.
Qed.
Lemma MP x : Minv x -> Pinv (stop x).
Proof.
  intros ((C1 & C2 & C3) & (Vn & _) & (Vf & _)). unfold Pinv, common, ordered, valued in *. cbn [stop of point near far stop_side acc moving next].
  destruct (Rltb_spec (acc (near x)) (acc (far x))) as [L|L].
  - rewrite !andb_true_r. repeat split; try assumption; [apply C3|apply C3|apply C3|apply C3|intros _; lra]; assumption.
  - rewrite !andb_false_r. repeat split; try discriminate; try assumption.
    + intros _. right. split; [lra|reflexivity].
    + apply C3. assumption.
    + apply C3. assumption.
Qed.
Lemma traced rays n : (forall r, In r rays -> fst (sphere_intersection (sphere tr) r) <= snd (sphere_intersection (sphere tr) r)) ->
  Forall Qinv (tracing n (map start rays)).
Proof.
  intros L. apply (tracing_inv Pinv Qinv Minv); [exact PQ|exact QM|exact MM|exact MP|].
  apply Forall_forall. intros x X. apply in_map_iff in X. destruct X as (r & <- & X). apply P_start, L, X.
Qed.

(* ---- a function that behaves like a distance ---- *)
Section lipschitz.
Hypothesis Hl : forall r s t, unit_ray r -> Rabs (f r s - f r t) <= Rabs (s - t).
Definition clear (x : state) : Prop :=
  unit_ray (of x) -> meets (sphere tr) (of x) = true ->
  let t := sphere_intersection (sphere tr) (of x) in
  (fst t <= acc (near x) /\ forall s, fst t <= s < acc (near x) -> 0 < f (of x) s) /\
  (acc (far x) <= snd t /\ forall s, acc (far x) < s <= snd t -> 0 < f (of x) s).
Definition Mclear x := Minv x /\ clear x /\ (unit_ray (of x) -> crossed (near x) = false /\ crossed (far x) = false).
Lemma lip_step r s t : unit_ray r -> 0 <= f r s -> Rabs (t - s) < f r s -> 0 < f r t.
Proof.
  intros U A B. pose proof (Hl r s t U) as H. rewrite (Rabs_minus_sym s t) in H.
  apply Rabs_def2 in B. pose proof (Rle_abs (f r s - f r t)). unfold Rabs in H at 2. destruct (Rcase_abs (t - s)); lra.
Qed.
Lemma lip_reach r s t : unit_ray r -> 0 <= f r s -> Rabs (t - s) <= f r s -> 0 <= f r t.
Proof.
  intros U A B. pose proof (Hl r s t U) as H. rewrite (Rabs_minus_sym s t) in H.
  pose proof (Rle_abs (f r s - f r t)). lra.
Qed.
Lemma QM_clear x : Qinv x /\ clear x -> Mclear (step x).
Proof.
  intros [Q C]. split; [apply QM, Q|]. destruct Q as (_ & _ & Un & Uf). split.
  - intros U M. cbn [of RayTrace.step] in U, M. destruct (C U M) as [[A B] [D E]]. cbv zeta. cbn [of near far RayTrace.step step_side acc].
    unfold used in *. split.
    + destruct (moving (near x)).
      * destruct Un as [T ->]. split; [lra|]. intros s S0. destruct (Rlt_le_dec s (acc (near x))) as [L|L]; [apply B; lra|].
        apply (lip_step _ (acc (near x)) s U); [lra|]. rewrite Rabs_right by lra. lra.
      * rewrite Un. replace (acc (near x) + 1 * 0) with (acc (near x)) by ring. split; assumption.
    + destruct (moving (far x)).
      * destruct Uf as [T ->]. split; [lra|]. intros s S0. destruct (Rlt_le_dec (acc (far x)) s) as [L|L]; [apply E; lra|].
        apply (lip_step _ (acc (far x)) s U); [lra|]. rewrite Rabs_left1 by lra. lra.
      * rewrite Uf. replace (acc (far x) + -1 * 0) with (acc (far x)) by ring. split; assumption.
  - cbn [of RayTrace.step]. intros U. unfold crossed. cbn [near far RayTrace.step step_side next]. unfold used in *. split.
    + destruct (moving (near x)); apply Rltb_false; [|lra]. destruct Un as [T ->].
      apply (lip_reach _ (acc (near x)) _ U); [lra|]. rewrite Rabs_right by lra. lra.
    + destruct (moving (far x)); apply Rltb_false; [|lra]. destruct Uf as [T ->].
      apply (lip_reach _ (acc (far x)) _ U); [lra|]. rewrite Rabs_left1 by lra. lra.
Qed.
Lemma MM_clear k x : Mclear x -> Mclear (back k x).
Proof.
  intros (A & B & C). split; [apply MM, A|]. split.
  - intros U. cbn [of RayTrace.back] in U. destruct (C U) as [D E]. intros M. cbv zeta. cbn [of near far RayTrace.back].
    unfold back_side. rewrite D, E. exact (B U M).
  - intros U. cbn [of RayTrace.back] in U. destruct (C U) as [D E]. cbn [near far RayTrace.back]. unfold back_side. rewrite D, E. split; assumption.
Qed.
Lemma start_clear r : clear (start r).
Proof.
  unfold clear, RayTrace.start. destruct (sphere_intersection (sphere tr) r) as [t0 t1] eqn:E.
  destruct (meets (sphere tr) r) eqn:M; cbn [of near far acc]; intros _ M'; [|congruence].
  rewrite E. cbn [fst snd]. split; (split; [lra|intros s S0; lra]).
Qed.
Lemma traced_clear rays n : (forall r, In r rays -> fst (sphere_intersection (sphere tr) r) <= snd (sphere_intersection (sphere tr) r)) ->
  Forall (fun x => Qinv x /\ clear x) (tracing n (map start rays)).
Proof.
  intros L. apply (tracing_inv (fun x => Pinv x /\ clear x) (fun x => Qinv x /\ clear x) Mclear).
  - intros x [P C]. split; [apply PQ, P|exact C].
  - exact QM_clear.
  - exact MM_clear.
  - intros x (A & B & _). split; [apply MP, A|exact B].
  - apply Forall_forall. intros x X. apply in_map_iff in X. destruct X as (r & <- & X).
    split; [apply P_start, L, X|apply start_clear].
Qed.
End lipschitz.
End trace.
