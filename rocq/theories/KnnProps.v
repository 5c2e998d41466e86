(* C10, C11: knn_points, knn_gather and the gradient of knn_points. *)
From Verif Require Import Base RBase Knn KnnSpec KnnProofs.
Local Open Scope R_scope.

(* C10: for every pair of clouds, query lengths, K >= 1, L1 or squared L2 distance, and
   whatever sorting permutation torch.sort picks, each valid query gets its K nearest
   neighbours (is_knn), and each padded query a row of zeros. *)
Theorem knn_points_are_nearest sort norm K return_sorted min_length2 p1 p2 length1 length2 :
  sorts sort -> norm = 1%nat \/ norm = 2%nat -> (1 <= K)%nat ->
  (length1 <= length p1)%nat -> (length2 <= length p2)%nat -> (min_length2 <= length2)%nat ->
  exists rows, knn_points sort norm K return_sorted min_length2 p1 p2 length1 length2 = Ok rows /\
    length rows = length p1 /\
    forall i, (i < length p1)%nat ->
      exists ds js, nth_error rows i = Some (map Fin ds, js) /\
        if (i <? length1)%nat
        then is_knn (fun j => (if (norm =? 1)%nat then dist_L1 else dist_L2sq) (nth i p1 []) (nth j p2 []))
               length2 K ds js
        else ds = repeat 0 K /\ js = repeat 0%nat K.
Proof. exact (knn_points_correct sort norm K return_sorted min_length2 p1 p2 length1 length2). Qed.
Print Assumptions knn_points_are_nearest.

(* the reported distances do not depend on how ties were broken *)
Theorem knn_distances_determined dist n K ds js ds' js' :
  is_knn dist n K ds js -> is_knn dist n K ds' js' -> ds = ds'.
Proof. exact (is_knn_dists_unique dist n K ds js ds' js'). Qed.
Print Assumptions knn_distances_determined.

Theorem knn_bad_norm_rejected sort norm K rs ml p1 p2 l1 l2 :
  norm <> 1%nat -> norm <> 2%nat -> knn_points sort norm K rs ml p1 p2 l1 l2 = Fail EValue.
Proof. intros H1 H2. unfold knn_points. destruct (Nat.eqb_spec norm 1), (Nat.eqb_spec norm 2); try contradiction; reflexivity. Qed.
Print Assumptions knn_bad_norm_rejected.

(* gathering with the indices of knn_points yields the neighbours themselves, and zero
   rows where a cloud has fewer than K points *)
Theorem knn_gather_neighbours A (zero : A) min_length K n (x : list A) dist ds js :
  is_knn dist n K ds js -> (min_length <= n)%nat -> (n <= length x)%nat -> (1 <= length x)%nat ->
  exists out, knn_gather zero min_length K n x js = Ok out /\ length out = K /\
    (forall k, (k < Nat.min K n)%nat -> nth_error out k = nth_error x (nth k js 0%nat)) /\
    (forall k, (Nat.min K n <= k < K)%nat -> nth_error out k = Some zero).
Proof.
  intros H Hm Hn Hx. apply knn_gather_ok; auto; [apply H| |].
  - intros k Hk. assert (V := proj1 (knn_valid _ _ _ _ _ H k Hk)). lia.
  - intros k Hk. apply (knn_padding _ _ _ _ _ H k Hk).
Qed.
Print Assumptions knn_gather_neighbours.

(* C11: grad_p1 and grad_p2 are the partial derivatives of sum g*dist over the returned
   neighbours (for L1 away from the kinks). *)
Theorem knn_backward_p1 norm D K n1 n2 idx g p1 p2 i d :
  (i < n1)%nat -> (d < D)%nat ->
  (norm = 1%nat -> forall k, (k < Nat.min K n2)%nat -> idx i k <> (-1)%Z ->
     p1 i d <> p2 (Z.to_nat (idx i k)) d) ->
  derivable_pt_lim (fun t => knn_loss norm D K n1 n2 idx g (with_entry p1 i d t) p2) (p1 i d)
    (knn_grad_p1 norm K n1 n2 idx p1 p2 g i d).
Proof. exact (knn_grad_p1_ok norm D K n1 n2 idx g p1 p2 i d). Qed.
Print Assumptions knn_backward_p1.

Theorem knn_backward_p2 norm D K n1 n2 idx g p1 p2 j d :
  (d < D)%nat ->
  (norm = 1%nat -> forall i k, (i < n1)%nat -> (k < Nat.min K n2)%nat -> idx i k = Z.of_nat j ->
     p1 i d <> p2 j d) ->
  (forall i k, (i < n1)%nat -> (k < Nat.min K n2)%nat -> (-1 <= idx i k)%Z) ->
  derivable_pt_lim (fun t => knn_loss norm D K n1 n2 idx g p1 (with_entry p2 j d t)) (p2 j d)
    (knn_grad_p2 norm K n1 n2 idx p1 p2 g j d).
Proof. exact (knn_grad_p2_ok norm D K n1 n2 idx g p1 p2 j d). Qed.
Print Assumptions knn_backward_p2.

Theorem knn_backward_padding norm K n1 n2 idx p1 p2 g i d :
  (n1 <= i)%nat -> knn_grad_p1 norm K n1 n2 idx p1 p2 g i d = 0.
Proof. exact (knn_grad_pad norm K n1 n2 idx p1 p2 g i d). Qed.
Print Assumptions knn_backward_padding.

(* At a kink of the L1 distance (equal coordinates) the code returns -g: the gradient of a
   neighbour at the same position is not zero. *)
Theorem knn_backward_L1_zero_at_tie_refuted :
  exists p1 p2 g idx, (forall d, p1 0%nat d = p2 0%nat d) /\ idx 0%nat 0%nat = 0%Z /\
    knn_grad_p1 1 1 1 1 idx p1 p2 g 0 0 <> 0.
Proof.
  exists (fun _ _ => 0), (fun _ _ => 0), (fun _ _ => 1), (fun _ _ => 0%Z). repeat split.
  unfold knn_grad_p1, knn_diff. cbn. destruct (Rltb_spec 0 0); lra.
Qed.
Print Assumptions knn_backward_L1_zero_at_tie_refuted.

(* hypotheses are satisfiable *)
Example sorts_exists : exists sort, sorts sort.
Proof. exists argsort. exact argsort_sorts. Qed.
Example knn_points_case : exists rows,
  knn_points argsort 2 2 true 1 [[0]; [5]; [9]] [[4]; [1]; [7]] 2 3 = Ok rows /\ length rows = 3%nat.
Proof.
  destruct (knn_points_are_nearest argsort 2 2 true 1 [[0]; [5]; [9]] [[4]; [1]; [7]] 2 3) as [r [H [L _]]];
    try (cbn; lia); try apply argsort_sorts; eauto.
Qed.
Example is_knn_case : is_knn (fun j => match j with 0%nat => 16 | 1%nat => 1 | _ => 49 end) 3 2 [1; 16] [1; 0]%nat.
Proof.
  constructor; try reflexivity; cbn [Nat.min firstn].
  - repeat constructor; cbn; intuition discriminate.
  - intros [|[|k]] Hk; try lia; cbn; split; (lia || lra).
  - intros [|i] [|[|j]] Hi Hj; try lia; cbn; lra.
  - intros [|[|j]] Hj Hn [|[|k]] Hk; try lia; cbn in *; try lra; intuition lra.
  - intros k Hk; lia.
Qed.
Example knn_backward_case :
  knn_grad_p1 2 1 1 1 (fun _ _ => 0%Z) (fun _ _ => 3) (fun _ _ => 1) (fun _ _ => 1) 0 0 = 4.
Proof. unfold knn_grad_p1, knn_diff. cbn. lra. Qed.
