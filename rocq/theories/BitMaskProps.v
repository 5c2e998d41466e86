(* C28: the bit mask of the coarse rasterizer behaves like an array of independent bits. *)
From Verif Require Import Base BitMask BitMaskSpec BitMaskProofs.

(* For every mask whose depth is a multiple of 32, every thread count and interleaving of
   the clearing loop, and every history of set/unset calls (hence every schedule of the
   atomic operations), each bit and each count reads as if the bits were independent, all
   accesses are in range, and memory past H*W*N/32 words is untouched. *)
Theorem bitmask_independent_bits H W N nthreads data trace ops :
  N mod 32 = 0 -> 1 <= nthreads -> H * W * (N / 32) <= length data ->
  Permutation trace (clear_trace nthreads (H * W * (N / 32))) ->
  Forall (in_mask H W N) ops ->
  exists d0 d1, run_clear trace data = Ok d0 /\ bm_run W (words N) d0 ops = Ok d1 /\
    (forall y x d, y < H -> x < W -> d < N -> bm_get W (words N) d1 y x d = Ok (bit_after ops y x d)) /\
    (forall y x, y < H -> x < W ->
       bm_count W (words N) d1 y x = Ok (count_if (bit_after ops y x) (seq 0 N))) /\
    (forall j, H * W * (N / 32) <= j -> nth_error d1 j = nth_error data j).
Proof. intros HN. exact (bitmask_correct H W N HN nthreads data trace ops). Qed.
Print Assumptions bitmask_independent_bits.

(* Without the multiple-of-32 condition bits overlap: with N = 33 setting (0,0,32) turns on
   (0,1,0). The rounding-up in the constructor body only changes a parameter copy. *)
Theorem bitmask_any_depth_refuted :
  exists H W N data ops y x d,
    H * W * (N / 32) <= length data /\ Forall (in_mask H W N) ops /\ y < H /\ x < W /\ d < N /\
    exists d1, bm_run W (words N) data ops = Ok d1 /\
      bm_get W (words N) d1 y x d <> Ok (bit_after ops y x d).
Proof.
  exists 1, 2, 33, [0%N; 0%N], [BSet 0 0 32], 0, 1, 0.
  split; [vm_compute; lia|]. split; [constructor; [cbn; lia|constructor]|].
  split; [lia|]. split; [lia|]. split; [lia|]. exists [0%N; 1%N]. split; [vm_compute; reflexivity|].
  vm_compute. discriminate.
Qed.
Print Assumptions bitmask_any_depth_refuted.

Example bitmask_case : Forall (in_mask 2 3 64) [BSet 1 2 63; BUnset 0 0 5; BSet 1 2 0] /\
  bit_after [BSet 1 2 63; BUnset 0 0 5; BSet 1 2 0] 1 2 63 = true /\
  Permutation (rev (clear_trace 4 12)) (clear_trace 4 12).
Proof. split; [|split]. - repeat apply Forall_cons; cbn; auto; lia. - reflexivity. - symmetry. apply Permutation_rev. Qed.
