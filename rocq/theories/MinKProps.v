(* C27: the CUDA top-K structure keeps K smallest entries for every stream of adds. *)
From Verif Require Import Base RBase MinK MinKSpec MinKProofs.
Local Open Scope R_scope.

(* For every stream of (key, value) pairs and caller arrays with room for K entries: no
   access is out of bounds or reads an unset field, the structure holds min(K, #adds)
   entries that are K smallest ones, sort() leaves the same entries in ascending order, and
   array cells past the size are never written. *)
Theorem mink_keeps_smallest A keys (vals : list A) K ins :
  length keys = length vals -> (K <= length keys)%nat -> (1 <= K)%nat ->
  exists s s', mink_adds (mink_init keys vals K) ins = Ok s /\ mink_sort s = Ok s' /\
    mk_size s = Nat.min K (length ins) /\ mk_size s' = mk_size s /\
    selects_smallest K ins (firstn (mk_size s) (combine (mk_keys s) (mk_vals s))) /\
    selects_smallest K ins (firstn (mk_size s') (combine (mk_keys s') (mk_vals s'))) /\
    ascending (firstn (mk_size s') (combine (mk_keys s') (mk_vals s'))) /\
    (forall j, (mk_size s <= j)%nat ->
       nth_error (combine (mk_keys s') (mk_vals s')) j = nth_error (combine keys vals) j).
Proof. exact (mink_correct keys vals K ins). Qed.
Print Assumptions mink_keeps_smallest.

(* K = 0 is outside of the contract: add reads the uninitialised max_key *)
Theorem mink_K0_reads_unset A keys (vals : list A) key v :
  mink_add (mink_init keys vals 0) key v = Fail EOutOfBounds.
Proof. reflexivity. Qed.
Print Assumptions mink_K0_reads_unset.

Example mink_case : exists s s', mink_adds (mink_init [0;0] [9;9]%nat 2) [(5,1%nat); (3,2%nat); (4,3%nat); (7,4%nat)] = Ok s /\
  mink_sort s = Ok s' /\ mk_size s = 2%nat.
Proof.
  destruct (mink_keeps_smallest nat [0;0] [9;9]%nat 2 [(5,1%nat); (3,2%nat); (4,3%nat); (7,4%nat)]) as [s [s' [H1 [H2 [H3 _]]]]];
    try (cbn; lia); eauto.
Qed.
Example selects_case : selects_smallest 2 [(5,1%nat); (3,2%nat); (4,3%nat)] [(3,2%nat); (4,3%nat)].
Proof.
  split; [reflexivity|]. exists [(5,1%nat)]. split.
  - cbn. rewrite perm_swap. apply perm_skip. apply perm_swap.
  - cbn. intros a b [<-|[<-|[]]] [<-|[]]; cbn; lra.
Qed.
