(* Property C65: the shared-memory reductions of the CUDA kernels find the extreme value and an index of it, in whatever
   order the threads' loads and stores happen between the barriers. *)
From Verif Require Import Base RBase Reduce ReduceProofs.
Local Open Scope R_scope.

(* a block of 2^k * 64 threads (the kernel uses 128); cell q holds the value and the index found by thread q *)
Theorem block_argmin_any_schedule : forall (k : nat) (m m' : mem), block_reduce false k m m' ->
  (forall q, (q < 2 ^ k * 64)%nat -> mval m' 0 <= mval m q) /\
  exists q, (q < 2 ^ k * 64)%nat /\ mval m' 0 = mval m q /\ midx m' 0 = midx m q.
Proof. exact block_min. Qed.
Print Assumptions block_argmin_any_schedule.
Theorem block_argmax_any_schedule : forall (k : nat) (m m' : mem), block_reduce true k m m' ->
  (forall q, (q < 2 ^ k * 64)%nat -> mval m q <= mval m' 0) /\
  exists q, (q < 2 ^ k * 64)%nat /\ mval m' 0 = mval m q /\ midx m' 0 = midx m q.
Proof. exact block_max. Qed.
Print Assumptions block_argmax_any_schedule.
(* the value left in cell 0 is the same in all schedules *)
Theorem block_reduction_deterministic : forall (maximum : bool) (k : nat) (m m1 m2 : mem),
  block_reduce maximum k m m1 -> block_reduce maximum k m m2 -> mval m1 0 = mval m2 0.
Proof.
  intros [] k m m1 m2 H1 H2; [destruct (block_max k m m1 H1) as (A1 & q1 & B1 & C1 & _); destruct (block_max k m m2 H2) as (A2 & q2 & B2 & C2 & _)
                             |destruct (block_min k m m1 H1) as (A1 & q1 & B1 & C1 & _); destruct (block_min k m m2 H2) as (A2 & q2 & B2 & C2 & _)];
  pose proof (A1 q2 B2); pose proof (A2 q1 B1); lra.
Qed.
Print Assumptions block_reduction_deterministic.
(* no schedule is stuck: the reduction can always be finished *)
Theorem block_reduction_finishes : forall (maximum : bool) (k : nat) (m : mem), exists m', block_reduce maximum k m m'.
Proof. exact block_exists. Qed.
Print Assumptions block_reduction_finishes.

(* 128 threads with distinct values: the reduction ends with the smallest and its index *)
Example block_argmin_ex : exists m', block_reduce false 1 (Mem (fun q => INR q) (fun q => (Z.of_nat q + 5)%Z)) m' /\ mval m' 0 = 0 /\ midx m' 0 = 5%Z.
Proof.
  destruct (block_exists false 1 (Mem (fun q => INR q) (fun q => (Z.of_nat q + 5)%Z))) as (m' & H). exists m'. split; [exact H|].
  destruct (block_min _ _ _ H) as (A & q & Hq & B & C). cbn [mval midx] in *. specialize (A 0%nat ltac:(cbn; lia)). cbn [INR] in A. assert (q = 0)%nat as ->; [|cbn in B, C; auto].
  destruct q; [reflexivity|]. pose proof (lt_0_INR (S q) ltac:(lia)). lra.
Qed.
