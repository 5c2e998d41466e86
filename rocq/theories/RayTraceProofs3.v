From Coq Require Import Reals List Bool Arith Lra Lia Psatz.
From Verif Require Import Base RBase Geom RayTrace RayTraceSpec RayTraceProofs RayTraceProofs2.
Import ListNotations.
Local Open Scope R_scope.

Lemma sample_0 a b n : sample a b n 0 = a.
Proof. unfold sample. cbn [INR]. unfold Rdiv. ring. Qed.
Lemma sample_step a b n k : (2 <= n)%nat -> sample a b n (S k) - sample a b n k = (b - a) / INR (n - 1).
Proof. intros N. unfold sample. rewrite S_INR. field. apply not_0_INR. lia. Qed.
Lemma sample_between a b n k : (2 <= n)%nat -> (k < n)%nat -> a <= b -> a <= sample a b n k <= b.
Proof.
  intros N K L. unfold sample. assert (P : 0 < INR (n - 1)) by (apply lt_0_INR; lia).
  assert (W : 0 <= INR k / INR (n - 1) <= 1).
  { split; [apply Rmult_le_pos; [apply pos_INR|left; apply Rinv_0_lt_compat, P]|].
    apply (Rmult_le_reg_r (INR (n - 1))); [exact P|]. unfold Rdiv. rewrite Rmult_assoc, Rinv_l by lra.
    rewrite Rmult_1_r, Rmult_1_l. apply le_INR. lia. }
  nra.
Qed.
Lemma rget_in {A} (l : list A) i d : (i < length l)%nat -> rget l i = Ok (nth i l d).
Proof. apply rget_nth. Qed.

Section sampler.
Variables (argmin : list R -> nat) (tr : tracer) (sdf : vec3 -> R) (r : ray) (a b : R).
Hypotheses (Ha : picks_minimum argmin) (Hn : (2 <= n_steps tr)%nat) (Hab : a <= b).
Notation f t := (sdf (at_ r t)).
Notation n := (n_steps tr).
Notation smp := (sample a b n).
Let zs := map (fun u => a + u * (b - a)) (linspace01 n).
Let fs := map (fun z => f z) zs.
Lemma zs_length : length zs = n.
Proof. unfold zs. rewrite map_length, linspace_length. reflexivity. Qed.
Lemma fs_length : length fs = n.
Proof. unfold fs. rewrite map_length, zs_length. reflexivity. Qed.
Lemma zs_nth k : (k < n)%nat -> nth k zs 0 = smp k.
Proof.
  intros K. unfold zs. rewrite (nth_indep _ 0 (a + 0 * (b - a))) by (rewrite map_length, linspace_length; exact K).
  rewrite (map_nth (fun u => a + u * (b - a)) (linspace01 n) 0 k), linspace_nth by assumption. reflexivity.
Qed.
Lemma fs_nth k : (k < n)%nat -> nth k fs 0 = f (smp k).
Proof.
  intros K. unfold fs. rewrite (nth_indep _ 0 (f 0)) by (rewrite map_length, zs_length; exact K).
  rewrite (map_nth (fun z => f z) zs 0 k), zs_nth by exact K. reflexivity.
Qed.
Lemma fs_some : fs <> [].
Proof. intros E. pose proof fs_length as L. rewrite E in L. cbn in L. lia. Qed.

Definition lowest (z : R) : Prop := exists k, (k < n)%nat /\ z = smp k /\ forall j, (j < n)%nat -> f z <= f (smp j).
Definition bracketed (z : R) : Prop := exists k, (S k < n)%nat /\ (forall j, (j <= k)%nat -> 0 <= f (smp j)) /\ f (smp (S k)) < 0 /\
  smp k <= z <= smp (S k).
Lemma lowest_ok : rget zs (argmin fs) = Ok (smp (argmin fs)) /\ lowest (smp (argmin fs)).
Proof.
  destruct (Ha fs fs_some) as [A B]. rewrite fs_length in A. split.
  - rewrite (rget_in zs _ 0) by (rewrite zs_length; exact A). rewrite zs_nth by exact A. reflexivity.
  - exists (argmin fs). split; [exact A|]. split; [reflexivity|]. intros j J.
    rewrite <- !fs_nth by assumption. apply B, nth_In. rewrite fs_length. exact J.
Qed.
Lemma sampler_runs training : 0 <= f a -> exists net z, ray_sampler argmin tr sdf training r a b = Ok (at_ r z, net, z) /\
  (net = true <-> exists k, (k < n)%nat /\ f (smp k) < 0) /\
  (if net && (negb training || in_object r) then bracketed z else lowest z).
Proof.
  intros F0. unfold ray_sampler. destruct (Nat.eqb_spec n 0) as [Z|_]; [lia|]. fold zs fs.
  destruct (first_negative argmin fs Ha fs_some) as [I F]. cbv zeta in F. set (i := argmin (ranking fs)) in *.
  rewrite fs_length in I.
  rewrite (rget_in fs i 0) by (rewrite fs_length; exact I). rewrite (rget_in zs i 0) by (rewrite zs_length; exact I).
  rewrite fs_nth, zs_nth by exact I. cbn [rbind].
  assert (N : Rltb (f (smp i)) 0 = true <-> exists k, (k < n)%nat /\ f (smp k) < 0).
  { rewrite Rltb_true. split; [intros H; exists i; split; assumption|]. intros (k & K & H). rewrite <- fs_nth by exact I. apply F.
    exists (f (smp k)). split; [|exact H]. rewrite <- fs_nth by exact K. apply nth_In. rewrite fs_length. exact K. }
  destruct lowest_ok as [L1 L2].
  exists (Rltb (f (smp i)) 0).
  assert (S0 : (if training then Rltb (f (smp i)) 0 && in_object r else Rltb (f (smp i)) 0)
    = Rltb (f (smp i)) 0 && (negb training || in_object r)) by (destruct training; cbn [negb orb]; rewrite ?andb_true_r; reflexivity).
  rewrite S0. destruct (Rltb (f (smp i)) 0) eqn:E; cbn [andb].
  - destruct (negb training || in_object r) eqn:T.
    + (* secant *)
      apply Rltb_true in E. assert (F' := F). destruct F' as [_ F'].
      { exists (f (smp i)). split; [|exact E]. rewrite <- fs_nth by exact I. apply nth_In. rewrite fs_length. exact I. }
      assert (G : forall j, (j < i)%nat -> 0 <= f (smp j)) by (intros j J; rewrite <- fs_nth by lia; apply F', J).
      destruct i as [|k] eqn:Ei; [rewrite sample_0 in E; lra|]. cbn [previous].
      rewrite (rget_in fs k 0) by (rewrite fs_length; lia). rewrite (rget_in zs k 0) by (rewrite zs_length; lia).
      rewrite fs_nth, zs_nth by lia.
      rewrite L1.
      assert (Y : exists y, (if in_object r && true then Ok (smp (S k)) else Ok (smp (argmin fs))) = Ok y) by (destruct (in_object r && true); eexists; reflexivity).
      destruct Y as (y & ->). cbn [rbind].
      eexists. split; [reflexivity|]. split; [exact N|]. exists k. split; [exact I|]. split; [intros j J; apply G; lia|]. split; [exact E|].
      apply secant_between; [|apply G; lia|exact E].
      pose proof (sample_step a b n k Hn) as D. assert (P : 0 < INR (n - 1)) by (apply lt_0_INR; lia).
      assert (0 <= (b - a) / INR (n - 1)) by (apply Rmult_le_pos; [lra|left; apply Rinv_0_lt_compat, P]). lra.
    + replace (in_object r) with false by (destruct (in_object r), training; try discriminate; reflexivity). cbn [andb]. rewrite L1. cbn [rbind].
      eexists. split; [reflexivity|]. split; [exact N|exact L2].
  - rewrite andb_false_r, L1. cbn [rbind]. eexists. split; [reflexivity|]. split; [exact N|exact L2].
Qed.
Lemma lowest_between z : lowest z -> a <= z <= b.
Proof. intros (k & K & -> & _). apply sample_between; assumption. Qed.
Lemma bracketed_between z : bracketed z -> a <= z <= b.
Proof.
  intros (k & K & _ & _ & L). pose proof (sample_between a b n k Hn ltac:(lia) Hab). pose proof (sample_between a b n (S k) Hn K Hab). lra.
Qed.
Lemma bracketed_root z : continuity (fun t => f t) -> bracketed z ->
  exists w, f w = 0 /\ Rabs (z - w) <= (b - a) / INR (n - 1) /\ a <= w <= b.
Proof.
  intros C (k & K & P & Ng & L). pose proof (sample_step a b n k Hn) as D.
  destruct (IVT_cor (fun t => f t) (smp k) (smp (S k)) C) as (w & W & Z).
  - lra.
  - pose proof (P k (le_n k)). cbn beta. nra.
  - exists w. split; [exact Z|].
    pose proof (sample_between a b n k Hn ltac:(lia) Hab). pose proof (sample_between a b n (S k) Hn K Hab).
    split; [|lra]. rewrite <- D. unfold Rabs. destruct (Rcase_abs (z - w)); lra.
Qed.
End sampler.
