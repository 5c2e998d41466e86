From Coq Require Import Reals List Bool Arith Lra Lia Psatz.
From Verif Require Import Base RBase Geom RayTrace RayTraceSpec RayTraceProofs RayTraceProofs2 RayTraceProofs3 RayTraceProofs4 RayTraceProofs5.
Import ListNotations.
Local Open Scope R_scope.

(* stepping back never undoes more than the last step *)
Section bounds.
Variables (argmin : list R -> nat) (tr : tracer) (sdf : vec3 -> R).
Hypotheses (Ha : picks_minimum argmin) (Hn : (2 <= n_steps tr)%nat) (Ht : 0 <= threshold tr) (Hl : 1 / 2 <= line_search_step tr <= 1).

Lemma back_loop_k (M : nat -> state -> Prop) (P : state -> Prop) : (forall k x, M k x -> M (S k) (back tr sdf k x)) -> (forall k x, M k x -> P x) ->
  forall fuel k xs, Forall (M k) xs -> Forall P (back_loop tr sdf fuel k xs).
Proof.
  intros H HP fuel. induction fuel as [|fuel IH]; intros k xs F; [exact (Forall_impl _ (HP k) F)|]. cbn [back_loop].
  destruct (existsb _ xs); [|exact (Forall_impl _ (HP k) F)]. apply (IH (S k)). exact (map_inv (M k) (M (S k)) _ xs (H k) F).
Qed.
Lemma tracing_k (P Q : state -> Prop) (M : nat -> state -> Prop) : (forall x, P x -> Q (update tr x)) -> (forall x, Q x -> M 0%nat (step sdf x)) ->
  (forall k x, M k x -> M (S k) (back tr sdf k x)) -> (forall k x, M k x -> P x) -> (forall x, P x -> P (stop x)) ->
  forall n xs, Forall P xs -> Forall Q (tracing tr sdf n xs).
Proof.
  intros HU HS HB HP HT n. induction n as [|n IH]; intros xs F; cbn [tracing].
  - destruct (_ && _); exact (map_inv P Q _ xs HU F).
  - destruct (_ && _); [exact (map_inv P Q _ xs HU F)|]. apply IH. apply (map_inv P P _ _ HT).
    apply (back_loop_k M P HB HP). apply (map_inv Q (M 0%nat) _ _ HS). exact (map_inv P Q _ xs HU F).
Qed.
Definition lo (x : state) : R := fst (sphere_intersection (sphere tr) (of x)).
Definition hi (x : state) : R := snd (sphere_intersection (sphere tr) (of x)).
Definition inside (x : state) : Prop := lo x <= acc (near x) /\ acc (far x) <= hi x.
Definition left_of (k : nat) : R := 1 - (1 - line_search_step tr) * (2 - 2 / 2 ^ k).
Definition Mk (k : nat) (x : state) : Prop :=
  0 <= cur (near x) /\ 0 <= cur (far x) /\
  lo x + left_of k * cur (near x) <= acc (near x) /\ acc (far x) <= hi x - left_of k * cur (far x).
Lemma pow2_pos k : 0 < 2 ^ k.
Proof. apply pow_lt. lra. Qed.
Lemma left_nonneg k : 0 <= left_of k.
Proof.
  unfold left_of. pose proof (pow2_pos k) as P. assert (H : 0 < 2 / 2 ^ k) by (apply Rmult_lt_0_compat; [lra|apply Rinv_0_lt_compat, P]). nra.
Qed.
Lemma left_S k : left_of (S k) = left_of k - (1 - line_search_step tr) / 2 ^ k.
Proof. unfold left_of. cbn [pow]. field. pose proof (pow2_pos k). lra. Qed.
Lemma left_le k : left_of (S k) <= left_of k.
Proof.
  rewrite left_S. assert (0 <= (1 - line_search_step tr) / 2 ^ k) by (apply Rmult_le_pos; [lra|left; apply Rinv_0_lt_compat, pow2_pos]). lra.
Qed.
Lemma update_cur s : 0 <= cur (update_side tr s).
Proof. cbn. destruct (Rleb_spec (if moving s then next s else 0) (threshold tr)); lra. Qed.
Lemma all_inside rays n : Forall inside (tracing tr sdf n (map (start tr sdf) rays)).
Proof.
  assert (F : Forall (fun x => inside x /\ 0 <= cur (near x) /\ 0 <= cur (far x)) (tracing tr sdf n (map (start tr sdf) rays))).
  { apply (tracing_k inside _ Mk).
    - intros x [A B]. split; [split; [exact A|exact B]|]. split; apply update_cur.
    - intros x ([A B] & C & D). unfold Mk, left_of. cbn [step of near far step_side acc cur pow].
      change (lo (step sdf x)) with (lo x). change (hi (step sdf x)) with (hi x). split; [exact C|]. split; [exact D|].
      replace (1 - (1 - line_search_step tr) * (2 - 2 / 1)) with 1 by field. lra.
    - intros k x (C & D & A & B). unfold Mk. cbn [back of near far].
      change (lo (back tr sdf k x)) with (lo x). change (hi (back tr sdf k x)) with (hi x). pose proof (left_le k) as L.
      assert (G : forall r sg s, cur (back_side tr sdf r sg k s) = cur s) by (intros r sg s; unfold back_side; destruct (crossed s); reflexivity).
      rewrite !G. split; [exact C|]. split; [exact D|]. split.
      + unfold back_side. destruct (crossed (near x)); [|nra]. cbn [acc]. rewrite left_S. lra.
      + unfold back_side. destruct (crossed (far x)); [|nra]. cbn [acc]. rewrite left_S. lra.
    - intros k x (C & D & A & B). pose proof (left_nonneg k). split; nra.
    - intros x [A B]. split; [exact A|exact B].
    - apply Forall_forall. intros x X. apply in_map_iff in X. destruct X as (r & <- & _). unfold inside, lo, hi, start, sphere_intersection.
      destruct (meets (sphere tr) r) eqn:M; cbn [of near far acc]; rewrite M; cbn [fst snd]; [lra|].
      unfold Rmax. destruct (Rle_dec 0 0); lra. }
  apply (Forall_impl _ (fun x H => proj1 H) F).
Qed.
Lemma found_inside us rays outs k r p z : forward argmin tr sdf false us rays = Ok outs -> nth_error rays k = Some r -> nth_error outs k = Some (p, true, z) ->
  fst (sphere_intersection (sphere tr) r) <= z <= snd (sphere_intersection (sphere tr) r).
Proof.
  intros E K O. destruct (forward_nth argmin tr sdf Ht false us rays outs k r E K) as (x & o & O' & X & I & G & _).
  rewrite O in O'. injection O' as <-. pose proof (all_inside rays (tracing_iters tr)) as IN. rewrite Forall_forall in IN. specialize (IN x I).
  pose proof (traced tr sdf Ht rays (tracing_iters tr) (fun y _ => proj1 (sphere_ordered _ y))) as T. rewrite Forall_forall in T. specialize (T x I).
  destruct (settled argmin tr sdf Ha Hn Ht false x T) as (p' & n' & z' & S0 & _ & C). unfold finish in G. rewrite S0 in G. cbn [rbind] in G.
  injection G as -> -> ->. unfold inside, lo, hi in IN. rewrite X in IN. destruct (moving (near x)) eqn:M.
  - destruct (moving_value tr sdf Ht x T M) as [_ L]. destruct C as [_ C]. cbn [negb orb andb] in C.
    pose proof (bracketed_between tr sdf (of x) _ _ Hn L z C). lra.
  - destruct C as (-> & C & _). pose proof (proj1 C eq_refl) as D. lra.
Qed.
Lemma sample_mono a b n i j : (2 <= n)%nat -> a <= b -> (i <= j)%nat -> sample a b n i <= sample a b n j.
Proof.
  intros N L I. unfold sample. assert (P : 0 < INR (n - 1)) by (apply lt_0_INR; lia). apply Rplus_le_compat_l, Rmult_le_compat_r; [lra|].
  apply Rmult_le_compat_r; [left; apply Rinv_0_lt_compat, P|apply le_INR, I].
Qed.
Lemma candidate us z0 t1 r p z : Forall (fun u => 0 <= u <= 1) us -> us <> [] -> z0 <= t1 -> minimal_sdf_point argmin sdf us r z0 t1 = Ok (p, z) -> z0 <= z <= t1.
Proof.
  intros U N L. unfold minimal_sdf_point. set (zs := map _ us). assert (Z : zs <> []) by (unfold zs; destruct us; [contradiction|discriminate]).
  destruct (Ha (map (fun z => sdf (at_ r z)) zs)) as [B1 _]; [destruct zs; [contradiction|discriminate]|]. rewrite map_length in B1.
  rewrite (rget_in zs _ 0 B1). cbn [rbind]. intros E. assert (Ez : nth (argmin (map (fun z => sdf (at_ r z)) zs)) zs 0 = z) by congruence.
  pose proof (nth_In zs 0 B1) as I. rewrite Ez in I. unfold zs in I. apply in_map_iff in I. destruct I as (u & <- & I).
  rewrite Forall_forall in U. specialize (U u I). nra.
Qed.
Lemma training_inside us rays outs k r p n z : Forall (fun u => 0 <= u <= 1) us -> us <> [] -> forward argmin tr sdf true us rays = Ok outs ->
  nth_error rays k = Some r -> nth_error outs k = Some (p, n, z) -> meets (sphere tr) r = true ->
  fst (sphere_intersection (sphere tr) r) <= z <= snd (sphere_intersection (sphere tr) r).
Proof.
  intros U N0 E K O Me. destruct (forward_nth argmin tr sdf Ht true us rays outs k r E K) as (x & o & O' & X & I & G & _).
  rewrite O in O'. injection O' as <-. pose proof (all_inside rays (tracing_iters tr)) as IN. rewrite Forall_forall in IN. specialize (IN x I).
  pose proof (traced tr sdf Ht rays (tracing_iters tr) (fun y _ => proj1 (sphere_ordered _ y))) as T. rewrite Forall_forall in T. specialize (T x I).
  destruct (settled argmin tr sdf Ha Hn Ht true x T) as (p' & n' & z' & S0 & _ & C). unfold finish in G. rewrite S0 in G. cbn [rbind] in G.
  unfold inside, lo, hi in IN. rewrite X in IN. unfold refine in G. rewrite X, Me in G. cbn [negb] in G. rewrite andb_false_r, andb_true_r in G.
  pose proof (proj1 (sphere_ordered (sphere tr) r)) as SO. destruct (sphere_intersection (sphere tr) r) as [t0 t1] eqn:SI. cbn [fst snd] in *.
  destruct (moving (near x)) eqn:M; cbn [negb] in G.
  - rewrite !andb_false_r in G. cbn [orb] in G. injection G as -> -> ->. destruct (moving_value tr sdf Ht x T M) as [_ L]. destruct C as [_ C].
    destruct (n && (negb true || in_object (of x))).
    + pose proof (bracketed_between tr sdf (of x) _ _ Hn L z C). lra.
    + pose proof (lowest_between tr sdf (of x) _ _ Hn L z C). lra.
  - destruct C as (-> & C & _). rewrite !andb_true_r in G. destruct (negb n' && in_object r || negb (in_object r)) eqn:A.
    + destruct (minimal_sdf_point _ _ _ _ _ _) as [[q w]|] eqn:MI; [|discriminate]. cbn [rbind fst snd] in G. injection G as -> -> ->.
      apply candidate in MI; [|exact U|exact N0|].
      * destruct (n && negb (in_object r)); lra.
      * destruct n; cbn [andb]; [|exact SO]. destruct (negb (in_object r)); [|exact SO]. pose proof (proj1 C eq_refl). lra.
    + injection G as -> -> <-. destruct n; [pose proof (proj1 C eq_refl); lra|]. destruct (in_object r); discriminate.
Qed.
Lemma training_behind us rays outs outs' k r p n z p' z' : Forall (fun u => 0 <= u <= 1) us -> us <> [] ->
  forward argmin tr sdf true us rays = Ok outs -> forward argmin tr sdf false us rays = Ok outs' -> nth_error rays k = Some r ->
  nth_error outs k = Some (p, n, z) -> nth_error outs' k = Some (p', true, z') -> in_object r = false -> n = true /\ z' <= z.
Proof.
  intros U N0 E E' K O P Io.
  destruct (forward_nth argmin tr sdf Ht _ _ _ _ _ _ E K) as (x & o & O' & X & I & G & Al). rewrite O in O'. injection O' as <-.
  destruct (forward_nth argmin tr sdf Ht _ _ _ _ _ _ E' K) as (y & o & O' & Y & I2 & G' & Al'). rewrite P in O'. injection O' as <-.
  pose proof (all_inside rays (tracing_iters tr)) as IN. rewrite Forall_forall in IN. specialize (IN x I).
  pose proof (traced tr sdf Ht rays (tracing_iters tr) (fun y _ => proj1 (sphere_ordered _ y))) as T. rewrite Forall_forall in T. specialize (T x I).
  assert (G2 : exists q, settle argmin tr sdf false x = Ok (q, true, z')).
  { destruct Al as (A1 & A2 & A3 & A4 & A5 & A6), Al' as (B1 & B2 & B3 & B4 & B5 & B6). unfold finish, settle in G'. unfold settle.
    rewrite A1, A2, A3, A4. rewrite B1, B2, B3, B4 in G'. destruct (moving (near (solo tr sdf (tracing_iters tr) (start tr sdf r)))).
    - destruct (ray_sampler _ _ _ _ _ _ _) as [w|]; [|discriminate]. cbn [rbind] in G'. exists p'. exact G'.
    - cbn [rbind] in G'. eexists. injection G' as _ -> ->. reflexivity. }
  destruct G2 as (q & G2). destruct (settled argmin tr sdf Ha Hn Ht false x T) as (p1 & n1 & z1 & S1 & _ & C1). rewrite G2 in S1. injection S1 as <- <- <-.
  destruct (settled argmin tr sdf Ha Hn Ht true x T) as (p2 & n2 & z2 & S2 & _ & C2). unfold finish in G. rewrite S2 in G. cbn [rbind] in G.
  unfold inside, lo, hi in IN. rewrite X in IN. unfold refine in G. rewrite X, Io in G. rewrite X in C1, C2. rewrite Io in C2.
  destruct (moving (near x)) eqn:M; cbn [negb] in G.
  - rewrite !andb_false_r in G. cbn [orb andb] in G. injection G as -> -> ->. destruct (moving_value tr sdf Ht x T M) as [_ L].
    destruct C1 as [C1 B1]. destruct C2 as [C2 B2]. assert (n = true) as -> by (apply C2, C1; reflexivity). split; [reflexivity|].
    cbn [negb orb andb] in B1, B2. destruct B1 as (i & I1 & H1 & H2 & H3). destruct B2 as (j & J & -> & H4).
    specialize (H4 (S i) I1). destruct (le_lt_dec j i) as [Q|Q]; [specialize (H1 j Q); lra|].
    pose proof (sample_mono (acc (near x)) (acc (far x)) (n_steps tr) (S i) j Hn L Q). lra.
  - destruct C1 as (-> & C1 & D1). destruct C2 as (-> & C2 & _). assert (n2 = true) as -> by (apply C2, C1; reflexivity).
    destruct (D1 eq_refl) as [Me _]. rewrite Me in G. cbn [negb andb orb] in G.
    pose proof (proj1 C1 eq_refl) as Lt. destruct (sphere_intersection (sphere tr) r) as [t0 t1]. cbn [fst snd] in *.
    destruct (minimal_sdf_point _ _ _ _ _ _) as [[q' w]|] eqn:MI; [|discriminate]. cbn [rbind fst snd] in G. injection G as -> <- ->.
    apply candidate in MI; [|exact U|exact N0|lra]. split; [reflexivity|lra].
Qed.
End bounds.
