(* Properties C17 (gather_scatter / GraphConv) and C52 (interpolate_face_attributes). *)
From Verif Require Import Base RBase GraphOps GraphOpsSpec CompositeSpec GraphOpsProofs.
Local Open Scope R_scope.

(* C17: each vertex receives the sum of its neighbours' features *)
Theorem gather_scatter_neighbour_sums : forall V D x edges directed, edges_in_range V edges ->
  exists fx, gather_scatter V D x edges directed false = Ok fx /\
  forall v d, (d < D)%nat -> fx v d = out_sum edges x v d + (if directed then 0 else in_sum edges x v d).
Proof. intros V D x edges directed H. apply (gs_spec V D x edges directed). apply gs_ok_iff, H. Qed.
Print Assumptions gather_scatter_neighbour_sums.
Example gather_scatter_ex : edges_in_range 4 [(0, 1); (3, 1); (2, 2)]%nat.
Proof. intros a b [[= <- <-]|[[= <- <-]|[[= <- <-]|[]]]]; lia. Qed.
(* the backward call is the adjoint of the forward call *)
Theorem gather_scatter_backward_adjoint : forall V D directed x y edges, edges_in_range V edges ->
  exists fx by_, gather_scatter V D x edges directed false = Ok fx /\ gather_scatter V D y edges directed true = Ok by_ /\
    inner V D fx y = inner V D x by_.
Proof. intros V D directed x y edges H. apply gs_adjoint, gs_ok_iff, H. Qed.
Print Assumptions gather_scatter_backward_adjoint.
(* hence the backward call returns the partial derivatives of any linear loss in the inputs *)
Theorem gather_scatter_backward_gradient : forall V D directed x go edges, edges_in_range V edges ->
  exists bg, gather_scatter V D go edges directed true = Ok bg /\
    forall v d, (v < V)%nat -> (d < D)%nat ->
      is_partial (fun x => match gather_scatter V D x edges directed false with Ok fx => loss V D go fx | Fail _ => 0 end) x v d (bg v d).
Proof.
  intros V D directed x go edges H. assert (H' := proj2 (gs_ok_iff V edges) H). destruct (gs_gradient V D directed x go edges H') as [bg [E G]].
  exists bg. split; [exact E|]. intros v d Hv Hd. unfold gather_scatter. rewrite H'. exact (G v d Hv Hd).
Qed.
Print Assumptions gather_scatter_backward_gradient.
(* no schedule of the atomic additions changes the result *)
Theorem gather_scatter_any_schedule : forall V D x edges directed backward out ws,
  gather_scatter V D x edges directed backward = Ok out ->
  Permutation ws (flat_map (gs_edge D directed backward x) edges) -> forall v d, gs_run ws v d = out v d.
Proof.
  intros V D x edges directed backward out ws E P v d. unfold gather_scatter in E. destruct (gs_ok V edges); [|discriminate].
  injection E as <-. apply gs_schedule, P.
Qed.
Print Assumptions gather_scatter_any_schedule.
(* the pure Python fallback computes the same *)
Theorem gather_scatter_python_agrees : forall V D x edges directed, edges_in_range V edges ->
  exists fx px, gather_scatter V D x edges directed false = Ok fx /\ gs_python V D x edges directed = Ok px /\
    forall v d, (d < D)%nat -> fx v d = px v d.
Proof. intros V D x edges directed H. apply gs_python_eq, gs_ok_iff, H. Qed.
Print Assumptions gather_scatter_python_agrees.
(* renaming the vertices renames the result *)
Theorem gather_scatter_equivariant : forall V D x edges directed pi, edges_in_range V edges ->
  (forall v, (v < V)%nat -> (pi v < V)%nat) -> (forall v w, (v < V)%nat -> (w < V)%nat -> pi v = pi w -> v = w) ->
  exists fx gx, gather_scatter V D (fun v d => x (pi v) d) edges directed false = Ok fx /\
    gather_scatter V D x (map (fun e => (pi (fst e), pi (snd e))) edges) directed false = Ok gx /\
    forall v d, (v < V)%nat -> (d < D)%nat -> gx (pi v) d = fx v d.
Proof. intros V D x edges directed pi H. apply gs_equivariant, gs_ok_iff, H. Qed.
Print Assumptions gather_scatter_equivariant.
Theorem graph_conv_formula : forall V Din Dout W0 W1 b0 b1 x edges directed, edges_in_range V edges ->
  exists out, graph_conv V Din Dout W0 W1 b0 b1 x edges directed = Ok out /\
  forall v o, (o < Dout)%nat -> out v o =
    sumf Din (fun i => W0 o i * x v i) + b0 o
    + out_sum edges (fun u o => sumf Din (fun i => W1 o i * x u i) + b1 o) v o
    + (if directed then 0 else in_sum edges (fun u o => sumf Din (fun i => W1 o i * x u i) + b1 o) v o).
Proof. intros V Din Dout W0 W1 b0 b1 x edges directed H. apply (graph_conv_spec V Din Dout W0 W1 b0 b1 x edges directed), gs_ok_iff, H. Qed.
Print Assumptions graph_conv_formula.

(* C52: a background pixel gets zero, a covered pixel the weighted sum of its face's attributes *)
Theorem interp_value : forall attr bary face p d,
  ((face p < 0)%Z -> interp_cuda attr bary face p d = 0) /\
  ((0 <= face p)%Z -> interp_cuda attr bary face p d = sumf 3 (fun i => bary p i * attr (Z.to_nat (face p)) i d)).
Proof.
  intros attr bary face p d. rewrite interp_cuda_sum. destruct (Z.ltb_spec (face p) 0); split; intros; try lia; [reflexivity|]. unfold sumf. cbn. ring.
Qed.
Print Assumptions interp_value.
Theorem interp_python_agrees : forall F attr bary face p d, (0 < F)%nat -> (face p < Z.of_nat F)%Z ->
  interp_python F attr bary face p d = Ok (interp_cuda attr bary face p d).
Proof. exact interp_python_eq. Qed.
Print Assumptions interp_python_agrees.
(* without any face the Python version fails although every pixel is background *)
Theorem interp_python_no_faces_refuted : ~ (forall F attr bary face p d, (face p < Z.of_nat F)%Z ->
  exists v, interp_python F attr bary face p d = Ok v).
Proof.
  intros H. destruct (H 0%nat (fun _ _ _ => 0) (fun _ _ => 0) (fun _ => (-1)%Z) 0%nat 0%nat) as [v E]; [reflexivity|]. cbn in E. discriminate.
Qed.
Print Assumptions interp_python_no_faces_refuted.
(* attributes that are an affine function of position are reproduced at the barycentric point *)
Theorem interp_affine_exact : forall attr bary face pos A c p d, (0 <= face p)%Z ->
  bary p 0%nat + bary p 1%nat + bary p 2%nat = 1 ->
  (forall i, (i < 3)%nat -> attr (Z.to_nat (face p)) i d = sumf 3 (fun k => A k * pos (Z.to_nat (face p)) i k) + c) ->
  interp_cuda attr bary face p d = sumf 3 (fun k => A k * sumf 3 (fun i => bary p i * pos (Z.to_nat (face p)) i k)) + c.
Proof. exact interp_affine. Qed.
Print Assumptions interp_affine_exact.
Example interp_affine_ex :
  let pos := fun f i k => INR (f + 2 * i + k * i) in let A := fun k => INR (k + 1) in
  let attr := fun f i d => sumf 3 (fun k => A k * pos f i k) + 5 in
  interp_cuda attr (fun _ i => nth i [1/2; 1/4; 1/4] 0) (fun _ => 2%Z) 0 0 = 32.
Proof. intros pos A attr. rewrite interp_cuda_sum. change (Z.to_nat 2) with 2%nat. unfold attr, A, pos, sumf. cbn. lra. Qed.
(* the backward kernel returns the derivatives, for every schedule of its atomic additions *)
Theorem interp_backward_attrs : forall P D attr bary face go ws f i d,
  Permutation ws (flat_map (interp_writes attr bary face go) (list_prod (seq 0 P) (seq 0 D))) -> (i < 3)%nat ->
  derivable_pt_lim (fun t => loss P D go (fun p c => interp_cuda (set3 attr f i d t) bary face p c)) (attr f i d) (irun ws (IA f i d)).
Proof. exact interp_attr_grad. Qed.
Print Assumptions interp_backward_attrs.
Theorem interp_backward_bary : forall P D attr bary face go ws p i,
  Permutation ws (flat_map (interp_writes attr bary face go) (list_prod (seq 0 P) (seq 0 D))) -> (i < 3)%nat ->
  is_partial (fun bary => loss P D go (fun p c => interp_cuda attr bary face p c)) bary p i (irun ws (IB p i)).
Proof. exact interp_bary_grad. Qed.
Print Assumptions interp_backward_bary.
