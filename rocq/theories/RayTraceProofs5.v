From Coq Require Import Reals List Bool Arith Lra Lia Psatz.
From Verif Require Import Base RBase Geom RayTrace RayTraceSpec RayTraceProofs RayTraceProofs2 RayTraceProofs3 RayTraceProofs4.
Import ListNotations.
Local Open Scope R_scope.

(* a step of the samples cannot jump over a longer interval *)
Lemma sample_falls a b n s s' : (2 <= n)%nat -> a <= s -> s' <= b -> s <= s' -> (b - a) / INR (n - 1) <= s' - s ->
  exists k, (k < n)%nat /\ s <= sample a b n k <= s'.
Proof.
  intros N A B L D.
  assert (E : sample a b n (n - 1) = b) by (unfold sample; field; apply not_0_INR; lia).
  assert (H : forall k, (k < n)%nat -> sample a b n k < s \/ exists j, (j <= k)%nat /\ s <= sample a b n j <= s').
  { induction k as [|k IH]; intros K.
    - rewrite sample_0. destruct (Rle_lt_or_eq_dec a s A) as [H|H]; [left; exact H|]. right. exists 0%nat. rewrite sample_0. split; [lia|lra].
    - destruct (IH ltac:(lia)) as [H|(j & J & H)]; [|right; exists j; split; [lia|exact H]].
      pose proof (sample_step a b n k N). destruct (Rlt_le_dec (sample a b n (S k)) s) as [G|G]; [left; exact G|].
      right. exists (S k). split; [lia|lra]. }
  destruct (H (n - 1)%nat ltac:(lia)) as [G|(j & J & G)]; [rewrite E in G; lra|]. exists j. split; [lia|exact G].
Qed.

Section results.
Variables (argmin : list R -> nat) (tr : tracer) (sdf : vec3 -> R).
Hypotheses (Ha : picks_minimum argmin) (Hn : (2 <= n_steps tr)%nat) (Ht : 0 <= threshold tr).
Notation f r t := (sdf (at_ r t)).
Notation finish := (finish argmin tr sdf).
Notation Qinv := (Qinv tr sdf).

Lemma moving_meets x : Qinv x -> moving (near x) = true -> meets (sphere tr) (of x) = true.
Proof.
  intros ((_ & _ & C) & _) M. destruct (meets (sphere tr) (of x)) eqn:E; [reflexivity|]. destruct (C eq_refl) as (A & _). congruence.
Qed.
Lemma moving_value x : Qinv x -> moving (near x) = true -> 0 <= f (of x) (acc (near x)) /\ acc (near x) <= acc (far x).
Proof. intros (_ & O & U & _) M. unfold used in U. rewrite M in U. split; [lra|exact (O M)]. Qed.
(* what settle returns *)
Lemma settled training x : Qinv x -> exists p n z, settle argmin tr sdf training x = Ok (p, n, z) /\
  (meets (sphere tr) (of x) = true -> p = at_ (of x) z) /\
  (if moving (near x) then
     (n = true <-> exists k, (k < n_steps tr)%nat /\ f (of x) (sample (acc (near x)) (acc (far x)) (n_steps tr) k) < 0) /\
     (if n && (negb training || in_object (of x)) then bracketed tr sdf (of x) (acc (near x)) (acc (far x)) z
      else lowest tr sdf (of x) (acc (near x)) (acc (far x)) z)
   else z = acc (near x) /\ (n = true <-> acc (near x) < acc (far x)) /\ (n = true -> meets (sphere tr) (of x) = true /\ f (of x) z <= threshold tr)).
Proof.
  intros Q. unfold settle. destruct (moving (near x)) eqn:M.
  - destruct (moving_value x Q M) as [F L].
    destruct (sampler_runs argmin tr sdf (of x) (acc (near x)) (acc (far x)) Ha Hn L training F) as (n & z & E & A & B).
    rewrite E. exists (at_ (of x) z), n, z. split; [reflexivity|]. split; [reflexivity|]. split; assumption.
  - eexists. eexists. eexists. split; [reflexivity|]. destruct Q as ((C1 & C2 & C3) & _).
    split; [exact C1|]. split; [reflexivity|]. rewrite Rltb_true. split; [reflexivity|]. intros L.
    destruct (C2 M) as [A|[A _]]; [|lra]. split; [|exact A].
    destruct (meets (sphere tr) (of x)) eqn:E; [reflexivity|]. destruct (C3 eq_refl) as (_ & _ & D & D'). lra.
Qed.
Lemma each training us rays outs k r : forward argmin tr sdf training us rays = Ok outs -> nth_error rays k = Some r ->
  exists x out, nth_error outs k = Some out /\ of x = r /\ Qinv x /\ finish training us x = Ok out.
Proof.
  intros E K. destruct (forward_nth argmin tr sdf Ht training us rays outs k r E K) as (x & o & O & X & I & G & _).
  exists x, o. split; [exact O|]. split; [exact X|]. split; [|exact G].
  pose proof (traced tr sdf Ht rays (tracing_iters tr) (fun y _ => proj1 (sphere_ordered _ y))) as T. rewrite Forall_forall in T. apply T, I.
Qed.
Lemma forward_total training us rays : (training = true -> us <> []) -> exists outs, forward argmin tr sdf training us rays = Ok outs /\ length outs = length rays.
Proof.
  intros U. unfold forward.
  assert (T : Forall Qinv (tracing tr sdf (tracing_iters tr) (map (start tr sdf) rays))) by (apply (traced tr sdf Ht); intros y _; apply sphere_ordered).
  pose proof (tracing_of tr sdf (tracing_iters tr) (map (start tr sdf) rays)) as W. rewrite start_of in W.
  apply (f_equal (@length ray)) in W. rewrite map_length in W. rewrite <- W. clear W.
  induction T as [|x l Q _ (outs & IH & L)]; [exists []; split; reflexivity|]. cbn [rmap].
  destruct (settled training x Q) as (p & n & z & S0 & _). rewrite S0. cbn [rbind].
  assert (G : exists o, (if training then refine argmin tr sdf us x (p, n, z) else Ok (p, n, z)) = Ok o).
  { destruct training; [|eexists; reflexivity]. unfold refine. destruct (_ && negb _); [eexists; reflexivity|].
    destruct (_ && meets _ _); [|eexists; reflexivity]. destruct (sphere_intersection _ _) as [t0 t1]. unfold minimal_sdf_point.
    set (zs := map _ us). assert (Z : zs <> []) by (unfold zs; specialize (U eq_refl); destruct us; [contradiction|discriminate]).
    destruct (Ha (map (fun z => f (of x) z) zs)) as [B _]; [destruct zs; [contradiction|discriminate]|]. rewrite map_length in B.
    rewrite (rget_in zs _ 0 B). cbn [rbind]. eexists. reflexivity. }
  destruct G as (o & ->). cbn [rbind]. rewrite IH. cbn [rbind]. eexists. split; [reflexivity|]. cbn [length]. rewrite L. reflexivity.
Qed.

(* ---- evaluation ---- *)
Lemma eval_ray us rays outs k r p n z : forward argmin tr sdf false us rays = Ok outs -> nth_error rays k = Some r -> nth_error outs k = Some (p, n, z) ->
  (meets (sphere tr) r = true -> p = along r z) /\
  (n = true -> meets (sphere tr) r = true /\
     (f r z <= threshold tr \/ exists lo hi, lo <= z <= hi /\ 0 <= f r lo /\ f r hi < 0)).
Proof.
  intros E K O. destruct (each _ _ _ _ _ _ E K) as (x & o & O' & <- & Q & G). rewrite O in O'. injection O' as <-.
  unfold RayTraceProofs4.finish in G. destruct (settled false x Q) as (p' & n' & z' & S0 & P & B). rewrite S0 in G. cbn [rbind] in G.
  injection G as -> -> ->. split; [exact P|]. intros ->. destruct (moving (near x)) eqn:M.
  - destruct B as [_ (j & J & A & C & D)]. split; [exact (moving_meets x Q M)|]. right. eexists. eexists. split; [exact D|]. split; [apply A; lia|exact C].
  - destruct B as (_ & _ & B). destruct (B eq_refl) as [B1 B2]. split; [exact B1|left; exact B2].
Qed.
Section lipschitz.
Hypothesis Hd : distance_like sdf.
Lemma each_clear training us rays outs k r : forward argmin tr sdf training us rays = Ok outs -> nth_error rays k = Some r ->
  exists x out, nth_error outs k = Some out /\ of x = r /\ Qinv x /\ clear tr sdf x /\ finish training us x = Ok out.
Proof.
  intros E K. destruct (forward_nth argmin tr sdf Ht training us rays outs k r E K) as (x & o & O & X & I & G & _).
  exists x, o. split; [exact O|]. split; [exact X|].
  pose proof (traced_clear tr sdf Ht (fun r s t U => lipschitz_along sdf r s t Hd U) rays (tracing_iters tr)
    (fun y _ => proj1 (sphere_ordered _ y))) as T.
  rewrite Forall_forall in T. destruct (T x I) as [Q C].
  split; [exact Q|]. split; [exact C|exact G].
Qed.
Lemma continuous_along r : unit_ray r -> continuity (fun t => f r t).
Proof.
  intros U t e E. exists e. split; [exact E|]. intros s (_ & D). unfold dist, R_met, R_dist in *. cbn in *. unfold R_dist in *.
  eapply Rle_lt_trans; [apply lipschitz_along; assumption|exact D].
Qed.
Lemma eval_lipschitz us rays outs k r p n z : forward argmin tr sdf false us rays = Ok outs -> nth_error rays k = Some r -> nth_error outs k = Some (p, n, z) ->
  unit_ray r -> n = true ->
  let t := sphere_intersection (sphere tr) r in
  fst t <= z <= snd t /\
  ((f r z <= threshold tr /\ forall s, fst t <= s < z -> 0 < f r s) \/
   exists w, f r w = 0 /\ fst t <= w <= snd t /\ Rabs (z - w) <= (snd t - fst t) / INR (n_steps tr - 1)).
Proof.
  intros E K O U N. destruct (each_clear _ _ _ _ _ _ E K) as (x & o & O' & <- & Q & C & G). rewrite O in O'. injection O' as <-.
  unfold RayTraceProofs4.finish in G. destruct (settled false x Q) as (p' & n' & z' & S0 & P & B). rewrite S0 in G. cbn [rbind] in G.
  injection G as -> -> ->. subst n. cbv zeta. destruct (moving (near x)) eqn:M.
  - destruct (C U (moving_meets x Q M)) as [[C1 C2] [C3 C4]]. destruct (moving_value x Q M) as [F L]. cbn [andb negb orb] in B. destruct B as [_ B].
    pose proof (bracketed_between tr sdf (of x) _ _ Hn L z B). split; [lra|]. right.
    destruct (bracketed_root tr sdf (of x) _ _ Hn L z (continuous_along _ U) B) as (w & W1 & W2 & W3). exists w.
    split; [exact W1|]. split; [lra|]. eapply Rle_trans; [exact W2|]. unfold Rdiv. apply Rmult_le_compat_r; [|lra].
    left. apply Rinv_0_lt_compat, lt_0_INR. lia.
  - destruct B as (-> & B1 & B2). destruct (B2 eq_refl) as [Me F]. destruct (C U Me) as [[C1 C2] [C3 C4]].
    pose proof (proj1 B1 eq_refl). split; [lra|]. left. split; [exact F|exact C2].
Qed.
Lemma eval_complete us rays outs k r p n z s s' : forward argmin tr sdf false us rays = Ok outs -> nth_error rays k = Some r -> nth_error outs k = Some (p, n, z) ->
  unit_ray r -> meets (sphere tr) r = true ->
  let t := sphere_intersection (sphere tr) r in
  fst t <= s -> s < s' -> s' <= snd t -> (snd t - fst t) / INR (n_steps tr - 1) <= s' - s ->
  (forall v, s <= v <= s' -> f r v < 0) -> n = true.
Proof.
  intros E K O U Me. destruct (each_clear _ _ _ _ _ _ E K) as (x & o & O' & <- & Q & C & G). rewrite O in O'. injection O' as <-.
  unfold RayTraceProofs4.finish in G. destruct (settled false x Q) as (p' & n' & z' & S0 & P & B). rewrite S0 in G. cbn [rbind] in G.
  injection G as -> -> ->. cbv zeta. intros L1 L2 L3 D Neg.
  destruct (C U Me) as [[C1 C2] [C3 C4]].
  assert (A1 : acc (near x) <= s).
  { apply Rnot_lt_le. intros H. pose proof (C2 s (conj L1 H)). pose proof (Neg s ltac:(lra)). lra. }
  assert (A2 : s' <= acc (far x)).
  { apply Rnot_lt_le. intros H. pose proof (C4 s' (conj H L3)). pose proof (Neg s' ltac:(lra)). lra. }
  destruct (moving (near x)) eqn:M.
  - apply B. destruct (sample_falls (acc (near x)) (acc (far x)) (n_steps tr) s s' Hn A1 A2 ltac:(lra)) as (j & J & F).
    + eapply Rle_trans; [|exact D]. unfold Rdiv. apply Rmult_le_compat_r; [|lra]. left. apply Rinv_0_lt_compat, lt_0_INR. lia.
    + exists j. split; [exact J|]. apply Neg, F.
  - apply B. lra.
Qed.
End lipschitz.

(* ---- training ---- *)
Lemma training_missed us rays outs k r p n z : forward argmin tr sdf true us rays = Ok outs -> nth_error rays k = Some r -> nth_error outs k = Some (p, n, z) ->
  meets (sphere tr) r = false -> n = false /\ z = - dot3 (direction r) (origin r) /\ p = along r z.
Proof.
  intros E K O Me. destruct (each _ _ _ _ _ _ E K) as (x & o & O' & <- & Q & G). rewrite O in O'. injection O' as <-.
  unfold RayTraceProofs4.finish in G. destruct (settled true x Q) as (p' & n' & z' & S0 & P & B). rewrite S0 in G. cbn [rbind] in G.
  assert (M : moving (near x) = false) by (apply (proj2 (proj2 (proj1 Q)) Me)).
  rewrite M in B. destruct B as (_ & _ & B). destruct n'; [destruct (B eq_refl); congruence|].
  unfold refine in G. rewrite M, Me in G. cbn [negb andb] in G. rewrite !andb_true_r in G.
  destruct (in_object (of x)); cbn [orb negb] in G; injection G as <- <- <-; repeat split; reflexivity.
Qed.
Lemma closest r t : unit_ray r -> length3 (along r (- dot3 (direction r) (origin r))) <= length3 (along r t).
Proof.
  intros U. pose proof (along_sq r t U) as A. pose proof (along_sq r (- dot3 (direction r) (origin r)) U) as B.
  pose proof (length3_nonneg (along r t)). pose proof (length3_nonneg (along r (- dot3 (direction r) (origin r)))).
  pose proof (pow2_ge_0 (t + dot3 (direction r) (origin r))).
  replace ((- dot3 (direction r) (origin r) + dot3 (direction r) (origin r)) ^ 2) with 0 in B by ring.
  apply Rnot_lt_le. intros Z. nra.
Qed.
Lemma training_lowest us rays outs k r p n z : us <> [] -> forward argmin tr sdf true us rays = Ok outs -> nth_error rays k = Some r -> nth_error outs k = Some (p, n, z) ->
  meets (sphere tr) r = true -> n && in_object r = false ->
  p = along r z /\ exists cs, In z cs /\ (length cs = length us \/ length cs = n_steps tr) /\ forall c, In c cs -> f r z <= f r c.
Proof.
  intros Us E K O Me N. destruct (each _ _ _ _ _ _ E K) as (x & o & O' & <- & Q & G). rewrite O in O'. injection O' as <-.
  unfold RayTraceProofs4.finish in G. destruct (settled true x Q) as (p' & n' & z' & S0 & P & B). rewrite S0 in G. cbn [rbind] in G.
  unfold refine in G. rewrite Me in G. cbn [negb] in G. rewrite andb_false_r, andb_true_r in G. destruct (moving (near x)) eqn:M.
  - cbn [negb] in G. rewrite !andb_false_r in G. cbn [orb] in G. injection G as -> -> ->. split; [exact (P Me)|].
    destruct B as [_ B]. cbn [negb orb] in B. rewrite N in B. destruct B as (j & J & Z & B).
    exists (map (sample (acc (near x)) (acc (far x)) (n_steps tr)) (seq 0 (n_steps tr))).
    split; [apply in_map_iff; exists j; split; [symmetry; exact Z|apply in_seq; lia]|].
    split; [right; rewrite map_length, seq_length; reflexivity|].
    intros c C. apply in_map_iff in C. destruct C as (i & <- & I). apply in_seq in I. apply B. lia.
  - cbn [negb] in G. rewrite !andb_true_r in G.
    assert (A : negb n' && in_object (of x) || negb (in_object (of x)) = true).
    { destruct (negb n' && in_object (of x) || negb (in_object (of x))) eqn:A; [reflexivity|]. injection G as -> -> ->. destruct n, (in_object (of x)); discriminate. }
    rewrite A in G. destruct (sphere_intersection _ _) as [t0 t1]. unfold minimal_sdf_point in G.
    set (zs := map _ us) in G. assert (Z : zs <> []) by (unfold zs; destruct us; [contradiction|discriminate]).
    destruct (Ha (map (fun z => f (of x) z) zs)) as [B1 B2]; [destruct zs; [contradiction|discriminate]|]. rewrite map_length in B1.
    rewrite (rget_in zs _ 0 B1) in G. cbn [rbind fst snd] in G. set (i := argmin _) in *.
    assert (G' : at_ (of x) (nth i zs 0) = p /\ nth i zs 0 = z) by (split; congruence). destruct G' as [<- <-].
    split; [reflexivity|]. exists zs. split; [apply nth_In, B1|]. split; [left; unfold zs; apply map_length|].
    intros c C. rewrite (nth_indep _ 0 (f (of x) 0)) in B2 by (rewrite map_length; exact B1).
    rewrite (map_nth (fun z => f (of x) z) zs 0 i) in B2. apply B2. apply (in_map (fun z => f (of x) z)), C.
Qed.
Lemma training_found us rays outs outs' k r p n z : forward argmin tr sdf true us rays = Ok outs -> forward argmin tr sdf false us rays = Ok outs' ->
  nth_error rays k = Some r -> nth_error outs k = Some (p, n, z) -> n && in_object r = true -> nth_error outs' k = Some (p, n, z).
Proof.
  intros E E' K O N. apply andb_prop in N. destruct N as [-> I].
  destruct (forward_nth argmin tr sdf Ht _ _ _ _ _ _ E K) as (x & o & O' & X & In1 & G & Al). rewrite O in O'. injection O' as <-.
  destruct (forward_nth argmin tr sdf Ht _ _ _ _ _ _ E' K) as (y & o & O' & Y & In2 & G' & Al'). rewrite O'. f_equal.
  assert (Q : Qinv x).
  { pose proof (traced tr sdf Ht rays (tracing_iters tr) (fun y _ => proj1 (sphere_ordered _ y))) as T. rewrite Forall_forall in T. apply T, In1. }
  assert (XY : alike tr x y).
  { destruct Al as (A1 & A2 & A3 & A4 & A5 & A6), Al' as (B1 & B2 & B3 & B4 & B5 & B6). unfold alike. rewrite A1, A2, A3, A4, A5, B1, B2, B3, B4, B5.
    repeat split; try reflexivity. intros M. rewrite <- A1 in M. rewrite (A6 M). rewrite B6; [reflexivity|]. rewrite B1, <- A1. exact M. }
  (* the same ray in evaluation *)
  assert (G2 : finish false us x = Ok (p, true, z)).
  { unfold RayTraceProofs4.finish in *. unfold settle in *. destruct (moving (near x)) eqn:M.
    - assert (S0 : ray_sampler argmin tr sdf true (of x) (acc (near x)) (acc (far x)) = ray_sampler argmin tr sdf false (of x) (acc (near x)) (acc (far x))).
      { unfold ray_sampler. rewrite X, I. destruct (n_steps tr =? 0)%nat; [reflexivity|].
        destruct (rget _ _) as [fi|]; [|reflexivity]. cbn [rbind]. destruct (rget _ _) as [zi|]; [|reflexivity]. cbn [rbind].
        rewrite andb_true_r. reflexivity. }
      rewrite S0 in G. destruct (ray_sampler argmin tr sdf false (of x) (acc (near x)) (acc (far x))) as [[[q m] w]|]; [|discriminate].
      cbn [rbind] in *. unfold refine in G. rewrite M in G. cbn [negb] in G. rewrite !andb_false_r in G. cbn [orb andb] in G. exact G.
    - cbn [rbind] in *. destruct (settled true x Q) as (p' & n' & z' & S0 & P & B). unfold settle in S0. rewrite M in S0, B. injection S0 as <- <- <-.
      unfold refine in G. rewrite M, X, I in G. cbn [negb] in G. rewrite !andb_true_r in G. cbn [andb orb] in G. rewrite orb_false_r in G.
      destruct (Rltb (acc (near x)) (acc (far x))) eqn:Lt; cbn [negb andb] in G; [exact G|].
      exfalso. destruct (meets (sphere tr) r); cbn [negb] in G.
      + destruct (sphere_intersection (sphere tr) r) as [t0 t1]. destruct (minimal_sdf_point _ _ _ _ _ _); discriminate G.
      + discriminate G. }
  destruct o as [[p2 n2] z2]. destruct (found_alike argmin tr sdf false us x y _ _ _ _ _ _ XY G2 G') as (A & B & C).
  subst. f_equal. f_equal. symmetry. apply C. pose proof (settled true x Q) as (p' & n' & z' & S0 & P & D).
  destruct (moving (near x)) eqn:M; [exact (moving_meets x Q M)|].
  destruct D as (_ & _ & D). apply D. unfold RayTraceProofs4.finish, settle in G2. rewrite M in G2. unfold settle in S0. rewrite M in S0.
  cbn [rbind] in G2. congruence.
Qed.
End results.
