(* C47: chamfer_distance. *)
From Coq Require Import Reals Bool Lia Lra Permutation.
From Verif Require Import Base RBase Knn KnnSpec KnnProofs Chamfer ChamferSpec ChamferProofs ChamferProofs2 ChamferProofs3 ChamferProofs4 ChamferProofs5 ChamferProofs6 ChamferProofsLengths.
Local Open Scope R_scope.

(* two pairs of clouds in the plane, with sizes 2 and 1, 1 and 2; the padding holds 9 *)
Definition ex_x : tensor3 := {| t_points := 2; t_dim := 2; t_data := [[[0; 0]; [1; 0]]; [[0; 3]; [9; 9]]] |}.
Definition ex_y : tensor3 := {| t_points := 2; t_dim := 2; t_data := [[[0; 1]; [9; 9]]; [[0; 3]; [2; 3]]] |}.
Definition ex_xl : list nat := [2; 1]%nat.
Definition ex_yl : list nat := [1; 2]%nat.
Example ex_shaped : well_shaped ex_x ex_xl /\ well_shaped ex_y ex_yl /\ matching ex_x ex_y /\ fine_weights (Some [1; 3]) 2 /\ max_defined PMax false ex_x ex_y /\
  shown (FromTensor ex_x) (Some ex_xl) ex_x ex_xl /\ shown (FromClouds ex_y ex_yl None) None ex_y ex_yl.
Proof.
  repeat split; try (repeat constructor; cbn; lia); try discriminate; try (cbn; lia); try reflexivity.
  - repeat constructor; lra.
  - rewrite !rsum_cons, rsum_nil. lra.
Qed.

(* The loss of every pair of clouds is the sum, mean or maximum over the points of the distances to the
   nearest point of the other cloud, in one or both directions, times the weight of the pair; the padding plays
   no role. *)
Theorem chamfer_is_nearest_distances : forall sort px py oxl oyl x y xl yl w b r norm single ab, shown px oxl x xl -> shown py oyl y yl -> norm = 1%nat \/ norm = 2%nat ->
  well_shaped x xl -> well_shaped y yl -> matching x y -> fine_weights w (length (t_data x)) -> max_defined r single x y ->
  chamfer_distance sort px py oxl oyl None None w b (Some r) norm single ab = Ok (reduced b w (pair_losses r norm single w (combine (clouds x xl) (clouds y yl))), None).
Proof. exact chamfer_value_any. Qed.
Print Assumptions chamfer_is_nearest_distances.
(* 1 + 2 from x to y and 1 back for the first pair; 0 and 0 + 4 for the second *)
Example ex_value : chamfer_distance argsort (FromTensor ex_x) (FromTensor ex_y) (Some ex_xl) (Some ex_yl) None None None (Some BSum) (Some PSum) 2 false true = Ok (Scalar 8, None).
Proof.
  destruct ex_shaped as (A & B & C & _). rewrite (chamfer_is_nearest_distances argsort _ _ _ _ ex_x ex_y ex_xl ex_yl); try assumption; try exact I; try discriminate; [|repeat split; discriminate|repeat split; discriminate|right; reflexivity].
  do 3 f_equal. unfold pair_losses, both_ways, one_way, nearest, distance, clouds. cbn. f_equal. rewrite !Rmin_left by lra. lra.
Qed.

(* without reductions: the losses of the single points, and zeros for the padding *)
Theorem chamfer_per_point : forall sort px py oxl oyl x y xl yl w norm single ab, shown px oxl x xl -> shown py oyl y yl -> norm = 1%nat \/ norm = 2%nat ->
  well_shaped x xl -> well_shaped y yl -> matching x y -> fine_weights w (length (t_data x)) ->
  chamfer_distance sort px py oxl oyl None None w None None norm single ab =
  Ok ((if single then One (M (point_losses norm (t_points x) w (combine (clouds x xl) (clouds y yl))))
       else Two (M (point_losses norm (t_points x) w (combine (clouds x xl) (clouds y yl)))) (M (point_losses norm (t_points y) w (combine (clouds y yl) (clouds x xl))))), None).
Proof.
  intros sort px py oxl oyl x y xl yl w norm single ab SX SY Hn WX WY MA HW. rewrite (per_point sort px py oxl oyl x y xl yl) by assumption. rewrite (point_losses_eq norm w x y xl yl WX WY MA), (point_losses_eq norm w y x yl xl WY WX) by (destruct MA; split; symmetry; assumption). reflexivity.
Qed.
Print Assumptions chamfer_per_point.

Theorem chamfer_symmetric : forall sort px py oxl oyl x y xl yl w b r norm ab, shown px oxl x xl -> shown py oyl y yl -> norm = 1%nat \/ norm = 2%nat ->
  well_shaped x xl -> well_shaped y yl -> matching x y -> fine_weights w (length (t_data x)) -> max_defined r false x y ->
  chamfer_distance sort px py oxl oyl None None w b (Some r) norm false ab = chamfer_distance sort py px oyl oxl None None w b (Some r) norm false ab.
Proof.
  intros sort px py oxl oyl x y xl yl w b r norm ab SX SY Hn WX WY MA HW HM. rewrite (chamfer_value_any sort px py oxl oyl x y xl yl) by assumption.
  rewrite (chamfer_value_any sort py px oyl oxl y x yl xl); try assumption; [rewrite <- combine_swap', swap_losses; reflexivity|destruct MA; split; symmetry; assumption|destruct MA as (<- & _); exact HW|]. intros E. destruct (HM E) as (P1 & P2). split; [apply P2; reflexivity|intros _; exact P1].
Qed.
Print Assumptions chamfer_symmetric.

(* batches with the same points, in any order and with any padding, have the same loss *)
Theorem chamfer_ignores_order_and_padding : forall sort sort' px py px' py' oxl oyl oxl' oyl' x y x' y' xl yl xl' yl' w b r norm single ab ab', shown px oxl x xl -> shown py oyl y yl -> shown px' oxl' x' xl' -> shown py' oyl' y' yl' ->
  norm = 1%nat \/ norm = 2%nat -> well_shaped x xl -> well_shaped y yl -> well_shaped x' xl' -> well_shaped y' yl' -> matching x y -> matching x' y' -> fine_weights w (length (t_data x)) -> max_defined r single x y -> max_defined r single x' y' ->
  Forall2 (@Permutation (list R)) (clouds x xl) (clouds x' xl') -> Forall2 (@Permutation (list R)) (clouds y yl) (clouds y' yl') ->
  chamfer_distance sort px py oxl oyl None None w b (Some r) norm single ab = chamfer_distance sort' px' py' oxl' oyl' None None w b (Some r) norm single ab'.
Proof.
  intros sort sort' px py px' py' oxl oyl oxl' oyl' x y x' y' xl yl xl' yl' w b r norm single ab ab' SX SY SX' SY' Hn WX WY WX' WY' MA MA' HW HM HM' PX PY. rewrite (chamfer_value_any sort px py oxl oyl x y xl yl) by assumption.
  rewrite (chamfer_value_any sort' px' py' oxl' oyl' x' y' xl' yl'); try assumption; [rewrite (perm_losses r norm single w _ _ _ _ PX PY); reflexivity|]. apply Forall2_length in PX. rewrite (clouds_length x xl WX), (clouds_length x' xl' WX') in PX. rewrite <- PX. exact HW.
Qed.
Print Assumptions chamfer_ignores_order_and_padding.
Example ex_order : Forall2 (@Permutation (list R)) (clouds ex_x ex_xl) (clouds {| t_points := 3; t_dim := 2; t_data := [[[1; 0]; [0; 0]; [7; 7]]; [[0; 3]; [8; 8]; [8; 8]]] |} [2; 1]%nat).
Proof. unfold clouds. cbn. constructor; [apply perm_swap|]. constructor; [apply Permutation_refl|constructor]. Qed.

(* the loss of non-empty clouds is never negative, and zero exactly when every pair that carries weight has the
   same set of points (for one direction: the points of x are points of y) *)
Theorem chamfer_zero_iff : forall sort px py oxl oyl x y xl yl w b r norm single ab, shown px oxl x xl -> shown py oyl y yl -> norm = 1%nat \/ norm = 2%nat ->
  well_shaped x xl -> well_shaped y yl -> matching x y -> fine_weights w (length (t_data x)) -> max_defined r single x y ->
  List.Forall (fun c => c <> []) (clouds y yl) -> (single = false -> List.Forall (fun c => c <> []) (clouds x xl)) ->
  exists v, chamfer_distance sort px py oxl oyl None None w (Some b) (Some r) norm single ab = Ok (Scalar v, None) /\ 0 <= v /\
  (v = 0 <-> forall n a c, nth_error (clouds x xl) n = Some a -> nth_error (clouds y yl) n = Some c -> 0 < weight_of w n -> incl a c /\ (single = false -> incl c a)).
Proof.
  intros sort px py oxl oyl x y xl yl w b r norm single ab SX SY Hn WX WY MA HW HM NY NX. rewrite (chamfer_value_any sort px py oxl oyl x y xl yl) by assumption. destruct (zero_value x y xl yl w b r norm single WX WY MA HW NY NX) as (v & E & P & Z). exists v. rewrite E. auto.
Qed.
Print Assumptions chamfer_zero_iff.
Example ex_nonempty : List.Forall (fun c => c <> []) (clouds ex_y ex_yl) /\ List.Forall (fun c => c <> []) (clouds ex_x ex_xl).
Proof. split; repeat constructor; discriminate. Qed.

(* with normals: every point is compared with the normal of one of its nearest points *)
Theorem chamfer_normals : forall sort px py oxl oyl oxn oyn x y xl yl xn yn w b r norm single ab, shown_with px oxl oxn x xl xn -> shown_with py oyl oyn y yl yn ->
  r <> PMax -> norm = 1%nat \/ norm = 2%nat -> well_shaped x xl -> well_shaped y yl -> matching x y -> fine_weights w (length (t_data x)) -> normals_fit x xn -> normals_fit y yn ->
  List.Forall (fun l => (0 < l)%nat) yl -> (single = false -> List.Forall (fun l => (0 < l)%nat) xl) ->
  exists T, batch_of norm single x y xl yl xn yn T /\
  chamfer_distance sort px py oxl oyl oxn oyn w b (Some r) norm single ab =
  Ok (reduced b w (pair_losses r norm single w (combine (clouds x xl) (clouds y yl))), Some (reduced b w (weighted_by w (map (normals_both r ab single) T)))).
Proof. exact chamfer_normals_value. Qed.
Print Assumptions chamfer_normals.
Definition ex_xn : list (list (list R)) := [[[0; 0; 1]; [0; 0; 1]]; [[1; 0; 0]; [9; 9; 9]]].
Definition ex_yn : list (list (list R)) := [[[0; 0; -1]; [9; 9; 9]]; [[1; 0; 0]; [0; 1; 0]]].
Example ex_normals : shown_with (FromTensor ex_x) (Some ex_xl) (Some ex_xn) ex_x ex_xl ex_xn /\ normals_fit ex_x ex_xn /\ normals_fit ex_y ex_yn /\ List.Forall (fun l => (0 < l)%nat) ex_yl.
Proof. repeat split; try discriminate; repeat constructor. Qed.
(* the mean of the normal terms of one direction lies between 0 and 1, or 2 without absolute values *)
Theorem chamfer_normals_range : forall ab na nb js, 0 <= normals_one_way PMean ab na nb js <= (if ab then 1 else 2).
Proof. exact normals_mean_range. Qed.
Print Assumptions chamfer_normals_range.

Theorem chamfer_rejects_arguments : forall sort px py oxl oyl oxn oyn w b p norm single ab, (p = None /\ b <> None) \/ (norm <> 1%nat /\ norm <> 2%nat) \/ (p = Some PMax /\ (oxn <> None \/ oyn <> None)) ->
  chamfer_distance sort px py oxl oyl oxn oyn w b p norm single ab = Fail EValue.
Proof. exact rejects_arguments. Qed.
Print Assumptions chamfer_rejects_arguments.
Theorem chamfer_rejects_batches : forall sort px py oxl oyl x y xl yl w b p norm single ab, shown px oxl x xl -> shown py oyl y yl -> well_shaped x xl -> well_shaped y yl ->
  ~ matching x y \/ (exists w', w = Some w' /\ (length w' <> length (t_data x) \/ exists a, In a w' /\ a < 0)) ->
  chamfer_distance sort px py oxl oyl None None w b p norm single ab = Fail EValue.
Proof. exact rejects_batches. Qed.
Print Assumptions chamfer_rejects_batches.

(* ---- what does not hold ---- *)
(* an empty target cloud counts as distance zero: the loss is zero although no point of x is in y *)
Theorem empty_target_refuted : ~ forall x y xl yl, well_shaped x xl -> well_shaped y yl -> matching x y ->
  chamfer_distance argsort (FromClouds x xl None) (FromClouds y yl None) None None None None None (Some BSum) (Some PSum) 2 true true = Ok (Scalar 0, None) ->
  forall n a c, nth_error (clouds x xl) n = Some a -> nth_error (clouds y yl) n = Some c -> incl a c.
Proof.
  intros H. specialize (H {| t_points := 1; t_dim := 1; t_data := [[[5]]] |} {| t_points := 1; t_dim := 1; t_data := [[[7]]] |} [1%nat] [0%nat]).
  assert (A : well_shaped {| t_points := 1; t_dim := 1; t_data := [[[5]]] |} [1%nat]) by (repeat split; repeat constructor). assert (B : well_shaped {| t_points := 1; t_dim := 1; t_data := [[[7]]] |} [0%nat]) by (repeat split; repeat constructor). assert (C : matching {| t_points := 1; t_dim := 1; t_data := [[[5]]] |} {| t_points := 1; t_dim := 1; t_data := [[[7]]] |}) by (split; reflexivity).
  specialize (H A B C). rewrite (chamfer_value_any argsort _ _ _ _ {| t_points := 1; t_dim := 1; t_data := [[[5]]] |} {| t_points := 1; t_dim := 1; t_data := [[[7]]] |} [1%nat] [0%nat]) in H; try assumption; try exact I; try discriminate; [|repeat split|repeat split|right; reflexivity].
  specialize (H ltac:(cbn; do 3 f_equal; lra) 0%nat [[5]] [] eq_refl eq_refl [5] (or_introl eq_refl)). destruct H.
Qed.
Print Assumptions empty_target_refuted.
(* weights that are all zero give an N x N tensor in place of the N losses, and a normal loss although there are
   no normals (the documentation says None) *)
Theorem zero_weights_refuted : ~ forall x y xl yl w, well_shaped x xl -> well_shaped y yl -> matching x y -> length w = length (t_data x) -> List.Forall (fun a => 0 <= a) w ->
  exists l, chamfer_distance argsort (FromClouds x xl None) (FromClouds y yl None) None None None None (Some w) None (Some PMean) 2 true true = Ok (One (V l), None).
Proof.
  intros H. destruct ex_shaped as (A & B & C & _). destruct (H ex_x ex_y ex_xl ex_yl [0; 0] A B C eq_refl) as (l & E); [repeat constructor; lra|].
  unfold chamfer_distance in E. cbn [valid_reductions negb Nat.eqb orb handle_input rbind] in E. unfold single_direction in E. cbn [ex_x ex_y t_data t_dim length Nat.eqb negb orb] in E.
  destruct (forallb (fun a => Rleb 0 a) [0; 0]) eqn:EF; [|cbn in EF; destruct (Rleb_spec 0 0); [discriminate|lra]]. cbn [negb] in E. destruct (Reqb_spec (rsum [0; 0]) 0) as [Z|Z]; [discriminate|]. rewrite !rsum_cons, rsum_nil in Z. lra.
Qed.
Print Assumptions zero_weights_refuted.
(* lengths that do not fit the padded points are refused *)
Theorem chamfer_rejects_lengths : forall sort px py oxl oyl oxn oyn w b p norm single ab,
  (exists x l, px = FromTensor x /\ oxl = Some l /\ l <> [] /\ (length l <> length (t_data x) \/ exists n, In n l /\ (t_points x < n)%nat)) \/
  (exists x xl y l, shown px oxl x xl /\ well_shaped x xl /\ oxn = None /\ py = FromTensor y /\ oyl = Some l /\ l <> [] /\ (length l <> length (t_data y) \/ exists n, In n l /\ (t_points y < n)%nat)) ->
  chamfer_distance sort px py oxl oyl oxn oyn w b p norm single ab = Fail EValue.
Proof. exact rejects_lengths. Qed.
Print Assumptions chamfer_rejects_lengths.
