(* Two shortcomings shown on concrete inputs. *)
From Verif Require Import Base RBase Geom LinAlg TopK Knn.
From Verif Require Import Alignment AlignmentSpec AlignmentProofs AlignmentProofs2 AlignmentProofs3 AlignmentProofs4 AlignmentProofs5 AlignmentProofs6.
Local Open Scope R_scope.

(* ---- weights other than 0 and 1 ---- *)
Definition on_x (a : R) : vec3 := V3 a 0 0.
Definition wx : points := PT 4 [[on_x (-1); on_x 1; on_x (-1); on_x 1]] [4%nat].
Definition wy : points := PT 4 [[on_x (-1); on_x 1; on_x (-2); on_x 2]] [4%nat].
Definition ww : weights_arg := WTensor 4 [[1; 1; 2; 2]].
Definition diag_svd (m : mat3) : mat3 * vec3 * mat3 := (id3, V3 (m00 m) (m11 m) (m22 m), id3).

Lemma w_total : rsum [1; 1; 2; 2] = 6.
Proof. unfold rsum. cbn. lra. Qed.
Lemma w_centre_x : centre [1; 1; 2; 2] [on_x (-1); on_x 1; on_x (-1); on_x 1] = V3 0 0 0.
Proof. unfold centre. rewrite w_total. unfold on_x. cbn. f_equal; lra. Qed.
Lemma w_centre_y : centre [1; 1; 2; 2] [on_x (-1); on_x 1; on_x (-2); on_x 2] = V3 0 0 0.
Proof. unfold centre. rewrite w_total. unfold on_x. cbn. f_equal; lra. Qed.
Lemma w_moment : moment [1; 1; 2; 2] [on_x (-1); on_x 1; on_x (-1); on_x 1] [on_x (-1); on_x 1; on_x (-2); on_x 2]
  = M3 3 0 0 0 0 0 0 0 0.
Proof. unfold moment. rewrite w_centre_x, w_centre_y, w_total. unfold on_x. cbn. apply M3_eq; lra. Qed.
Lemma w_inertia : inertia (map Rsqr [1; 1; 2; 2]) [on_x (-1); on_x 1; on_x (-1); on_x 1] (V3 0 0 0) = 10.
Proof. unfold inertia, Rsqr, on_x, sqdist. cbn. lra. Qed.
Lemma w_result : corresponding_points_alignment diag_svd wx wy ww true false (/ 1000000000) = Ok [Sim id3 (V3 0 0 0) (9 / 5)].
Proof.
  assert (E : corresponding_points_alignment diag_svd wx wy ww true false (/ 1000000000) =
    (t <- align_one diag_svd true false (/ 1000000000) (Some [1; 1; 2; 2]) 4
       [on_x (-1); on_x 1; on_x (-1); on_x 1] [on_x (-1); on_x 1; on_x (-2); on_x 2] ;; Ok [t])) by reflexivity.
  rewrite E. rewrite (align_some diag_svd true false (/ 1000000000) [1; 1; 2; 2] 4
    [on_x (-1); on_x 1; on_x (-1); on_x 1] [on_x (-1); on_x 1; on_x (-2); on_x 2] id3 (V3 3 0 0) id3 eq_refl eq_refl).
  - cbn [rbind]. do 2 f_equal. rewrite w_centre_x, w_centre_y, w_inertia, w_total.
    assert (D : sign_fix false id3 id3 = 1) by (unfold sign_fix; rewrite tr3_id, mul3_1_l; apply det3_id).
    rewrite D. rewrite Rmax_r_eq by lra. cbn [x3 y3 z3].
    assert (Rt : rot_of false id3 id3 = id3).
    { unfold rot_of. rewrite D, tr3_id, mul3_1_r, mul3_1_l. reflexivity. }
    rewrite Rt. f_equal; [|field]. unfold vmul3, id3, scal3, sub3. cbn. f_equal; lra.
  - rewrite w_total. lra.
  - rewrite w_moment. reflexivity.
Qed.
Lemma w_misfit c : misfit [1; 1; 2; 2] [on_x (-1); on_x 1; on_x (-1); on_x 1] [on_x (-1); on_x 1; on_x (-2); on_x 2]
  (Sim id3 (V3 0 0 0) c) = 6 * c ^ 2 - 20 * c + 18.
Proof. unfold misfit, image, sqdist, on_x, id3, vmul3, scal3, add3. cbn. ring. Qed.

(* ---- the padding of clouds of equal sizes ---- *)
Definition e1 : vec3 := V3 1 0 0.
Definition e0 : vec3 := V3 0 0 0.
(* clouds of 1 and 2 points, padded to 2 *)
Definition px : points := PT 2 [[e1; e0]; [e1; e0]] [1%nat; 2%nat].

Lemma px_padded : padded_batch px.
Proof. split; [reflexivity|]. split; repeat constructor. Qed.

Lemma len2 {A} (d : A) l : length l = 2%nat -> l = [nth 0 l d; nth 1 l d].
Proof. destruct l as [|a [|b [|c l]]]; try discriminate. reflexivity. Qed.

Lemma padding_result svd sort : (forall m, svd_of m (svd m)) -> sorts sort -> forall thr, exists sol,
  iterative_closest_point svd sort px px None 1 thr false false = Ok sol /\
  misfit (ones (cloud px 0)) (cloud px 0) (cloud px 0) (nth 0 (rts sol) (Sim id3 (V3 0 0 0) 1)) = / 4.
Proof.
  intros Hs Ho thr. unfold iterative_closest_point. cbn [rows px length Nat.eqb negb rbind].
  change (icp_mask px px) with [[1; 1]; [1; 1]]. cbn [icp_loop].
  destruct (nearest_points_ok sort 1 [e1; e0] [e1; e0] 1 1 Ho) as (n0 & E0 & L0 & F0); [cbn; lia|cbn; lia|lia|].
  destruct (nearest_points_ok sort 1 [e1; e0] [e1; e0] 2 2 Ho) as (n1 & E1 & L1 & F1); [cbn; lia|cbn; lia|lia|].
  assert (N0 : n0 = [e1; e1]).
  { rewrite (len2 e0 n0 L0). pose proof (F0 0%nat ltac:(cbn; lia)) as A. pose proof (F0 1%nat ltac:(cbn; lia)) as B.
    cbn [Nat.ltb Nat.leb] in A, B. change (V3 0 0 0) with e0 in *. rewrite B. cbn [nth].
    destruct A as [[A|[]] _]. cbn [firstn] in A. rewrite <- A. reflexivity. }
  unfold icp_step. cbn [rows nums width px length rbind fold_left Nat.min seq rmap rget nth_error]. rewrite E0. cbn [rbind]. rewrite E1. cbn [rbind].
  set (X := of_tensor 2 [[e1; e0]; [e1; e0]]). set (Y := of_tensor 2 [n0; n1]). set (W := WTensor 2 [[1; 1]; [1; 1]]).
  assert (PX : padded_batch X) by (split; [reflexivity|]; split; repeat constructor).
  assert (PY : padded_batch Y) by (split; [reflexivity|]; split; [constructor; [exact L0|constructor; [exact L1|constructor]]|repeat constructor]).
  assert (SS : same_sizes X Y) by (split; [reflexivity|]; split; reflexivity).
  assert (WF : weights_fit X W) by (split; [reflexivity|]; split; [reflexivity|]; repeat constructor).
  pose proof icp_eps_bounds as EB.
  destruct (align_all svd X Y W false false icp_eps PX PY SS WF (le_S 1 1 (le_n 1)) EB) as (ts & E & L & T). rewrite E. cbn [rbind].
  destruct ts as [|t0 [|t1 [|? ?]]]; try discriminate L. cbn [rmap seq rget nth_error rbind].
  destruct (T 0%nat t0 eq_refl) as [I0 R0].
  destruct (fit_all svd X Y W false false icp_eps PX PY SS WF (le_S 1 1 (le_n 1)) EB 0%nat t0 I0 R0) as (A & Im & _).
  - change (given_weights X W 0) with [1; 1]. unfold rsum. cbn. lra.
  - apply Hs.
  - discriminate.
  - change (given_weights X W 0) with [1; 1] in Im. change (cloud X 0) with [e1; e0] in Im.
    assert (CY : cloud Y 0 = [e1; e1]) by (unfold Y, cloud; cbn; rewrite N0; reflexivity).
    rewrite CY in Im. destruct A as [[O _] Sc].
    assert (Cx : centre [1; 1] [e1; e0] = V3 (/ 2) 0 0) by (unfold centre, rsum, e1, e0; cbn; f_equal; lra).
    assert (Cy : centre [1; 1] [e1; e1] = V3 1 0 0) by (unfold centre, rsum, e1; cbn; f_equal; lra).
    rewrite Cx, Cy in Im.
    assert (G : forall sol, rts sol = [t0; t1] -> misfit (ones (cloud px 0)) (cloud px 0) (cloud px 0) (nth 0 (rts sol) (Sim id3 (V3 0 0 0) 1)) = / 4).
    { intros sol ->. change (cloud px 0) with [e1]. unfold ones, misfit. cbn [length repeat sum3 nth].
      assert (V : sqdist (image t0 e1) e1 = dot3 (vmul3 (V3 (/ 2) 0 0) (rot t0)) (vmul3 (V3 (/ 2) 0 0) (rot t0))).
      { unfold image in *. rewrite Sc in *. destruct t0 as [r s c]. cbn [rot shift scale] in *. destruct r, s.
        unfold e1, sqdist, dot3, vmul3, scal3, add3 in *. cbn in *. injection Im as I1 I2 I3. 
        assert (x0 : x3 = 1 - / 2 * m00) by lra. assert (y0 : y3 = - / 2 * m01) by lra. assert (z0 : z3 = - / 2 * m02) by lra.
        rewrite x0, y0, z0. field. }
      rewrite V, (vmul_norm (rot t0) (V3 (/ 2) 0 0) O). unfold dot3. cbn. lra. }
    match goal with |- exists sol, (if ?c then _ else _) = _ /\ _ => destruct c end; eexists; (split; [reflexivity|]); apply G; reflexivity.
Qed.
