(* corresponding_cameras_alignment: results and witnesses. *)
From Coq Require Import String.
From Verif Require Import Base RBase Geom LinAlg Transform TransformSpec Camera CameraSpec.
From Verif Require Import Alignment AlignmentSpec AlignmentProofs AlignmentProofs2 AlignmentProofs3 AlignmentProofs6 AlignmentProps CamAlign CamAlignSpec CamAlignProofs CamAlignProofs2.
Local Open Scope R_scope.

Lemma realigned_all t rs ts : combine (map (mul3 (rot t)) rs) (along (fun r x => add3 (vmul3 (shift t) r) (scal3 (scale t) x)) rs ts) =
  map (realigned t) (combine rs ts).
Proof. unfold along. revert ts. induction rs as [|r rs IH]; intros [|x ts]; try reflexivity. cbn [map combine fst snd]. f_equal. apply IH. Qed.
Lemma alignment_shape svd src tgt es mode eps cs' : cameras_alignment svd src tgt es mode eps = Ok cs' ->
  exists t, poses cs' = map (realigned t) (poses src) /\ same_but_poses cs' src /\
    (align_centers svd src tgt es eps = Ok t \/ align_extrinsics svd src tgt es eps = Ok t).
Proof.
  unfold cameras_alignment. destruct (negb _); [discriminate|].
  match goal with |- rbind ?r _ = _ -> _ => destruct r as [t|] eqn:E; cbn [rbind]; [|discriminate] end. intros H. injection H as <-. exists t.
  split; [apply realigned_all|]. split; [repeat split|]. destruct (String.eqb mode "centers"); [left; exact E|]. destruct (String.eqb mode "extrinsics"); [right; exact E|discriminate].
Qed.
Lemma mode_shape svd src tgt n es mode eps t : cameras_ok src n -> cameras_ok tgt n ->
  (mode = "centers"%string /\ align_centers svd src tgt es eps = Ok t \/ mode = "extrinsics"%string /\ align_extrinsics svd src tgt es eps = Ok t) ->
  exists cs', cameras_alignment svd src tgt es mode eps = Ok cs' /\ poses cs' = map (realigned t) (poses src) /\ same_but_poses cs' src.
Proof.
  intros (_ & L & _) (_ & L' & _) H. unfold cameras_alignment. rewrite L, L', Nat.eqb_refl. cbn [negb].
  destruct H as [(-> & E)|(-> & E)]; cbn [String.eqb Ascii.eqb Bool.eqb]; rewrite E; cbn [rbind]; eexists; (split; [reflexivity|]; split; [apply realigned_all|repeat split]).
Qed.

(* what the cameras see *)
Lemma view_realigned t p x : scale t <> 0 ->
  view_of (fst (realigned t p)) (snd (realigned t p)) x = scal3 (scale t) (view_of (fst p) (snd p) (partner t x)).
Proof.
  intros N. destruct p as [r y]. unfold realigned, partner, view_of, mul3, add3, vmul3, scal3, div3. cbn [fst snd x3 y3 z3 m00 m01 m02 m10 m11 m12 m20 m21 m22].
  apply V3_eq; field; exact N.
Qed.
Definition xy_of (q : vec3) : R * R := (x3 q, y3 q).
Lemma pinhole_scale c s v : cls_of c = CPersp \/ cls_of c = CFoVPersp -> s <> 0 ->
  option_map xy_of (pinhole c (scal3 s v)) = option_map xy_of (pinhole c v).
Proof.
  intros C N. destruct v as [x y z]. unfold scal3. cbn [x3 y3 z3].
  destruct c; cbn [cls_of] in C; try (destruct C; discriminate); unfold pinhole.
  - destruct (Reqb_spec (s * z) 0) as [E|E], (Reqb_spec z 0) as [E'|E']; try reflexivity.
    + exfalso. apply Rmult_integral in E. tauto.
    + exfalso. apply E. rewrite E'. ring.
    + cbn [option_map]. unfold xy_of. cbn [x3 y3]. unfold Rdiv. rewrite !Rinv_mult. do 2 f_equal.
      * transitivity ((s * / s) * (x * (/ z * / tan (half_angle fov degrees) * / aspect))); [ring|]. rewrite Rinv_r by exact N. ring.
      * transitivity ((s * / s) * (y * (/ z * / tan (half_angle fov degrees)))); [ring|]. rewrite Rinv_r by exact N. ring.
  - destruct (Reqb_spec (s * z) 0) as [E|E], (Reqb_spec z 0) as [E'|E']; try reflexivity.
    + exfalso. apply Rmult_integral in E. tauto.
    + exfalso. apply E. rewrite E'. ring.
    + cbn [option_map]. unfold xy_of. cbn [x3 y3]. do 2 f_equal; f_equal; field; split; assumption.
Qed.
Lemma same_view svd src tgt es mode eps cs' : cameras_alignment svd src tgt es mode eps = Ok cs' ->
  exists t, poses cs' = map (realigned t) (poses src) /\ same_but_poses cs' src /\
    (scale t <> 0 -> forall i p p' x, nth_error (poses src) i = Some p -> nth_error (poses cs') i = Some p' ->
       view_of (fst p') (snd p') x = scal3 (scale t) (view_of (fst p) (snd p) (partner t x)) /\
       forall c, cls_of c = CPersp \/ cls_of c = CFoVPersp ->
         option_map xy_of (pinhole c (view_of (fst p') (snd p') x)) = option_map xy_of (pinhole c (view_of (fst p) (snd p) (partner t x)))).
Proof.
  intros H. destruct (alignment_shape _ _ _ _ _ _ _ H) as (t & A & B & _). exists t. split; [exact A|]. split; [exact B|].
  intros N i p p' x E E'. rewrite A, nth_error_map, E in E'. cbn in E'. injection E' as <-.
  assert (V := view_realigned t p x N).
  split; [exact V|]. intros c C. rewrite V. apply pinhole_scale; assumption.
Qed.

(* extrinsics *)
Lemma extrinsics_fit svd src tgt n es eps : cameras_ok src n -> cameras_ok tgt n ->
  svd_of (turn_cov (poses src) (poses tgt)) (svd (turn_cov (poses src) (poses tgt))) -> 0 < eps ->
  (es = true -> spread src = 0 \/ 3 * eps <= spread src) ->
  exists cs' t, cameras_alignment svd src tgt es "extrinsics" eps = Ok cs' /\ same_but_poses cs' src /\
    poses cs' = map (realigned t) (poses src) /\ orthogonal (rot t) /\ (es = false -> scale t = 1) /\
    (forall t', orthogonal (rot t') -> turn_error t (poses src) (poses tgt) <= turn_error t' (poses src) (poses tgt)) /\
    (forall t', (es = false -> scale t' = 1) -> shift_error t (poses src) (poses tgt) <= shift_error t' (poses src) (poses tgt)).
Proof.
  intros Hs Ht S E HV. destruct (extrinsics_best svd src tgt n Hs Ht es eps S E HV) as (t & A & B).
  destruct (mode_shape svd src tgt n es "extrinsics" eps t Hs Ht (or_intror (conj eq_refl A))) as (cs' & C & P & Q).
  exists cs', t. split; [exact C|]. split; [exact Q|]. split; [exact P|]. exact B.
Qed.
Lemma rsum_zero {A} (f : A -> R) l : (forall x, 0 <= f x) -> rsum (map f l) <= 0 -> forall x, In x l -> f x <= 0.
Proof.
  intros H. induction l as [|y l IH]; [intros _ x []|]. cbn [map]. rewrite rsum_cons. intros S x. pose proof (rsum_nonneg_map f l H) as P. pose proof (H y) as Q.
  intros [-> |I]; [lra|]. apply IH; [lra|exact I].
Qed.
Lemma mdist_zero a b : mdist a b <= 0 -> a = b.
Proof.
  unfold mdist. intros H.
  pose proof (pow2_ge_0 (m00 a - m00 b)). pose proof (pow2_ge_0 (m01 a - m01 b)). pose proof (pow2_ge_0 (m02 a - m02 b)).
  pose proof (pow2_ge_0 (m10 a - m10 b)). pose proof (pow2_ge_0 (m11 a - m11 b)). pose proof (pow2_ge_0 (m12 a - m12 b)).
  pose proof (pow2_ge_0 (m20 a - m20 b)). pose proof (pow2_ge_0 (m21 a - m21 b)). pose proof (pow2_ge_0 (m22 a - m22 b)).
  assert (Z : forall x y, (x - y) ^ 2 <= 0 -> x = y).
  { intros x y K. pose proof (pow2_ge_0 (x - y)) as K2. assert (K3 : (x - y) * (x - y) = 0) by (cbn in K, K2; lra). apply Rmult_integral in K3. lra. }
  destruct a as [a0 a1 a2 a3 a4 a5 a6 a7 a8], b as [b0 b1 b2 b3 b4 b5 b6 b7 b8]. cbn [m00 m01 m02 m10 m11 m12 m20 m21 m22] in *. apply M3_eq; apply Z; lra.
Qed.
Lemma combine_map_eq {A B} (f g : A -> B) l : map f l = map g l -> forall x, In x (combine l (map g l)) -> f (fst x) = snd x.
Proof.
  induction l as [|y l IH]; [intros _ x []|]. cbn [map combine]. intros H x. injection H as H1 H2. intros [<- |I]; [exact H1|]. exact (IH H2 x I).
Qed.
Lemma all_pairs {A B} (P : A -> B -> Prop) l (g : A -> B) : (forall x, In x (combine l (map g l)) -> P (fst x) (snd x)) -> forall x, In x l -> P x (g x).
Proof.
  intros H x I. apply (H (x, g x)). induction l as [|y l IH]; [destruct I|]. cbn [map combine]. destruct I as [-> |I]; [left; reflexivity|].
  right. apply IH; [|exact I]. intros z J. apply H. right. exact J.
Qed.
Lemma extrinsics_exact svd src tgt n es eps t0 : cameras_ok src n -> cameras_ok tgt n ->
  svd_of (turn_cov (poses src) (poses tgt)) (svd (turn_cov (poses src) (poses tgt))) -> 0 < eps ->
  (es = true -> spread src = 0 \/ 3 * eps <= spread src) ->
  orthogonal (rot t0) -> (es = false -> scale t0 = 1) -> poses tgt = map (realigned t0) (poses src) ->
  exists cs', cameras_alignment svd src tgt es "extrinsics" eps = Ok cs' /\ same_but_poses cs' src /\ poses cs' = poses tgt.
Proof.
  intros Hs Ht S E HV O C X. destruct (extrinsics_fit svd src tgt n es eps Hs Ht S E HV) as (cs' & t & A & B & P & _ & _ & T1 & T2).
  exists cs'. split; [exact A|]. split; [exact B|]. rewrite P, X. rewrite X in T1, T2. specialize (T1 t0 O). specialize (T2 t0 C).
  assert (Z1 : turn_error t0 (poses src) (map (realigned t0) (poses src)) = 0).
  { unfold turn_error. generalize (poses src). induction l as [|p l IH]; [reflexivity|]. cbn [map combine]. rewrite rsum_cons, IH. cbn [fst snd]. unfold mdist. ring. }
  assert (Z2 : shift_error t0 (poses src) (map (realigned t0) (poses src)) = 0).
  { unfold shift_error. generalize (poses src). induction l as [|p l IH]; [reflexivity|]. cbn [map combine]. rewrite rsum_cons, IH. cbn [fst snd]. rewrite sqdist_self. ring. }
  rewrite Z1 in T1. rewrite Z2 in T2. unfold turn_error in T1. unfold shift_error in T2.
  pose proof (rsum_zero _ _ (fun pp => mdist_nonneg _ _) T1) as U1. pose proof (rsum_zero _ _ (fun pp => sqdist_nonneg _ _) T2) as U2.
  apply map_ext_in. intros p Ip.
  pose proof (all_pairs (fun p q => mdist (fst (realigned t p)) (fst q) <= 0) (poses src) (realigned t0) U1 p Ip) as V1.
  pose proof (all_pairs (fun p q => sqdist (snd (realigned t p)) (snd q) <= 0) (poses src) (realigned t0) U2 p Ip) as V2.
  cbv beta in V1, V2. apply mdist_zero in V1. apply sqdist_zero in V2. rewrite (surjective_pairing (realigned t p)), (surjective_pairing (realigned t0 p)), V1, V2. reflexivity.
Qed.

(* centres *)
Lemma of_tensor_batch m (l : list vec3) : List.length l = m -> padded_batch (of_tensor m [l]).
Proof. intros L. split; [reflexivity|]. split; constructor; try constructor; auto. Qed.
Lemma seat_realigned u p : proper (rot u) -> orthogonal (fst p) ->
  seat (realigned (Sim (tr3 (rot u)) (neg3 (vmul3 (shift u) (tr3 (rot u)))) (scale u)) p) = image u (seat p).
Proof.
  intros (O & _) Q. destruct p as [r x]. unfold realigned, seat, image. cbn [fst snd rot shift scale] in *.
  set (q := rot u) in *. set (c := scale u). set (y := shift u).
  rewrite tr3_mul, tr3_tr.
  assert (Lin : forall a b m, vmul3 (add3 a (scal3 c b)) m = add3 (vmul3 a m) (scal3 c (vmul3 b m))).
  { intros a b m. unfold vmul3, add3, scal3. cbn [x3 y3 z3]. apply V3_eq; ring. }
  assert (Neg : forall a m, vmul3 (neg3 a) m = neg3 (vmul3 a m)).
  { intros a m. unfold vmul3, neg3. cbn [x3 y3 z3]. apply V3_eq; ring. }
  rewrite Lin, !Neg, !vmul3_mul. unfold orthogonal in Q, O.
  rewrite <- (vmul3_mul _ r (tr3 r)), Q, vmul3_id. rewrite <- (vmul3_mul y (tr3 q) q), (orthogonal_tr q O), vmul3_id.
  set (w := vmul3 x (tr3 r)). unfold vmul3, neg3, add3, scal3. cbn [x3 y3 z3]. apply V3_eq; ring.
Qed.
Lemma centers_fit svd src tgt n es eps : cameras_ok src n -> cameras_ok tgt n -> 0 < eps <= 1 ->
  (let w := repeat 1 n in let a := map seat (poses src) in let b := map seat (poses tgt) in svd_of (moment w a b) (svd (moment w a b))) ->
  (es = true -> eps <= spread src) ->
  exists cs' t u, cameras_alignment svd src tgt es "centers" eps = Ok cs' /\ same_but_poses cs' src /\
    poses cs' = map (realigned t) (poses src) /\ proper (rot t) /\ scale t = scale u /\
    map seat (poses cs') = map (image u) (map seat (poses src)) /\
    best_fit es false (repeat 1 n) (map seat (poses src)) (map seat (poses tgt)) u.
Proof.
  intros Hs Ht E S HV. set (a := map seat (poses src)) in *. set (b := map seat (poses tgt)) in *. cbv zeta in S.
  assert (La : List.length a = n) by (unfold a; rewrite map_length; apply (poses_length n src Hs)).
  assert (Lb : List.length b = n) by (unfold b; rewrite map_length; apply (poses_length n tgt Ht)).
  pose proof (proj1 Hs) as N. pose proof (INR_ge1 n N) as N1.
  destruct (alignment_best_fit svd (of_tensor n [a]) (of_tensor n [b]) WNone es false eps (of_tensor_batch n a La) (of_tensor_batch n b Lb)
     ltac:(repeat split) I ltac:(cbn; lia) E) as (ts & Ets & Lts & Fit). cbn [rows of_tensor List.length] in Lts.
  destruct ts as [|u [|? ?]]; try discriminate. specialize (Fit 0%nat u eq_refl). cbv zeta in Fit.
  assert (Ca : cloud (of_tensor n [a]) 0 = a) by (unfold cloud; cbn; rewrite <- La; apply firstn_all).
  assert (Cb : cloud (of_tensor n [b]) 0 = b) by (unfold cloud; cbn; rewrite <- Lb; apply firstn_all).
  assert (Cw : given_weights (of_tensor n [a]) WNone 0 = repeat 1 n) by reflexivity.
  rewrite Ca, Cb, Cw in Fit. specialize (Fit ltac:(apply Forall_forall; intros z Hz; apply repeat_spec in Hz; auto) ltac:(rewrite rsum_ones; lra) S).
  specialize (Fit ltac:(intros Ee; specialize (HV Ee); unfold spread in HV; rewrite (poses_length n src Hs) in HV; exact HV)).
  assert (Eal : align_centers svd src tgt es eps = Ok (Sim (tr3 (rot u)) (neg3 (vmul3 (shift u) (tr3 (rot u)))) (scale u))).
  { unfold align_centers. rewrite (center_all n src Hs), (center_all n tgt Ht). cbn [rbind]. fold a b. rewrite La, Lb, Ets. reflexivity. }
  set (t := Sim _ _ _) in Eal. destruct (mode_shape svd src tgt n es "centers" eps t Hs Ht (or_introl (conj eq_refl Eal))) as (cs' & C & P & Q).
  pose proof Fit as ((Pr & _) & _). cbn in Pr.
  exists cs', t, u. split; [exact C|]. split; [exact Q|]. split; [exact P|]. split; [|split; [reflexivity|split; [|exact Fit]]].
  - cbn [rot t]. split; [apply orthogonal_t, Pr|]. rewrite det3_tr. apply Pr.
  - rewrite P. unfold a. rewrite !map_map. apply map_ext_in. intros p Ip. apply seat_realigned; [exact Pr|].
    pose proof (poses_orthogonal n src Hs) as O. rewrite Forall_forall in O. apply O, Ip.
Qed.

(* errors *)
Lemma rejects svd src tgt es mode eps :
  List.length (cs_R src) <> List.length (cs_R tgt) \/ (mode <> "centers"%string /\ mode <> "extrinsics"%string) ->
  cameras_alignment svd src tgt es mode eps = Fail EValue.
Proof.
  intros H. unfold cameras_alignment. destruct (Nat.eqb_spec (List.length (cs_R src)) (List.length (cs_R tgt))) as [E|E]; cbn [negb]; [|reflexivity].
  destruct H as [H|(H1 & H2)]; [congruence|]. destruct (String.eqb_spec mode "centers"); [congruence|]. destruct (String.eqb_spec mode "extrinsics"); [congruence|]. reflexivity.
Qed.

(* ---- witnesses ---- *)
Definition plain (rs : list mat3) (ts : list vec3) : cameras := Cams CPersp (repeat (Persp 1 1 0 0) (List.length rs)) None rs ts true None.
Definition o3 : vec3 := V3 0 0 0.
Definition still : cameras := plain [id3; id3; id3] [o3; o3; o3].
Definition half_turns : cameras := plain [diag (V3 1 (-1) (-1)); diag (V3 (-1) 1 (-1)); diag (V3 (-1) (-1) 1)] [o3; o3; o3].
Lemma diag_proper a b c : a * a = 1 -> b * b = 1 -> c * c = 1 -> a * b * c = 1 -> proper (diag (V3 a b c)).
Proof. intros. split; [unfold orthogonal; m9; apply M3_eq; lra|m9; lra]. Qed.
Lemma half_turns_ok : cameras_ok still 3 /\ cameras_ok half_turns 3 /\ List.Forall proper (cs_R still) /\ List.Forall proper (cs_R half_turns).
Proof.
  assert (P : List.Forall proper (cs_R half_turns)) by (repeat constructor; apply diag_proper; lra).
  assert (P' : List.Forall proper (cs_R still)) by (repeat constructor; apply (diag_proper 1 1 1); lra).
  assert (W : forall l, List.Forall proper l -> List.Forall orthogonal l) by (intros l; apply Forall_impl; intros m (K & _); exact K).
  split; [|split; [|split; assumption]]; (split; [lia|]; split; [reflexivity|]; split; [reflexivity|]; apply W; assumption).
Qed.
Lemma half_turns_cov : turn_cov (poses still) (poses half_turns) = mscal3 (- / 3) id3.
Proof.
  unfold turn_cov, poses, still, half_turns, plain. cbn [cs_R cs_T combine fold_right fst snd List.length INR]. rewrite !mul3_1_l. unfold diag, tr3, madd3, zero3, mscal3, id3.
  cbn [x3 y3 z3 m00 m01 m02 m10 m11 m12 m20 m21 m22]. apply M3_eq; field.
Qed.
Lemma scalar_svd k u s v : k < 0 -> svd_of (mscal3 k id3) (u, s, v) -> mul3 v (tr3 u) = mscal3 (-1) id3.
Proof.
  intros K (U & V & S1 & S2 & M). pose proof (orthogonal_tr u U) as U'. pose proof (orthogonal_tr v V) as V'.
  assert (D : diag s = mscal3 k (mul3 (tr3 u) v)).
  { transitivity (mul3 (mul3 (tr3 u) (mul3 (mul3 u (diag s)) (tr3 v))) v).
    - rewrite !mul3_assoc, V', mul3_1_r, <- mul3_assoc, U', mul3_1_l. reflexivity.
    - rewrite <- M, mul3_scal_r, mul3_1_r, mul3_scal_l. reflexivity. }
  set (w := mul3 (tr3 u) v) in D. assert (W : orthogonal w) by (apply orthogonal_mul; [apply orthogonal_t, U|exact V]).
  assert (Ew : w = mscal3 (-1) id3).
  { unfold orthogonal in W. destruct w as [w0 w1 w2 w3 w4 w5 w6 w7 w8]. unfold diag, mscal3 in D. cbn [m00 m01 m02 m10 m11 m12 m20 m21 m22] in D.
    injection D as D0 D1 D2 D3 D4 D5 D6 D7 D8.
    assert (Z : forall x, 0 = k * x -> x = 0) by (intros x Hx; symmetry in Hx; apply Rmult_integral in Hx; lra).
    apply Z in D1, D2, D3, D5, D6, D7. subst. unfold mul3, tr3, id3 in W. cbn [m00 m01 m02 m10 m11 m12 m20 m21 m22] in W. injection W as W0 _ _ _ W4 _ _ _ W8.
    assert (Sg : forall x y, 0 <= y -> y = k * x -> x * x = 1 -> x = -1).
    { intros x y Py Ey Ex. assert (F : (x - 1) * (x + 1) = 0) by lra. apply Rmult_integral in F. destruct F as [F|F]; [|lra]. assert (x = 1) by lra. subst x. lra. }
    unfold mscal3, id3. cbn [m00 m01 m02 m10 m11 m12 m20 m21 m22]. apply M3_eq; try ring.
    - transitivity (-1); [|ring]. apply (Sg w0 (x3 s)); lra.
    - transitivity (-1); [|ring]. apply (Sg w4 (y3 s)); lra.
    - transitivity (-1); [|ring]. apply (Sg w8 (z3 s)); lra. }
  assert (Ev : v = mscal3 (-1) u).
  { transitivity (mul3 u w); [unfold w; rewrite <- mul3_assoc, U, mul3_1_l; reflexivity|]. rewrite Ew, mul3_scal_r, mul3_1_r. reflexivity. }
  rewrite Ev, mul3_scal_l, U. reflexivity.
Qed.
Lemma reflects svd es eps : svd_of (turn_cov (poses still) (poses half_turns)) (svd (turn_cov (poses still) (poses half_turns))) ->
  exists cs', cameras_alignment svd still half_turns es "extrinsics" eps = Ok cs' /\ cs_R cs' = [mscal3 (-1) id3; mscal3 (-1) id3; mscal3 (-1) id3].
Proof.
  intros S. destruct half_turns_ok as (Hs & Ht & _). destruct (svd (turn_cov (poses still) (poses half_turns))) as [[u s] v] eqn:E.
  rewrite half_turns_cov in S. apply scalar_svd in S; [|lra].
  pose proof (extrinsics_eq svd still half_turns 3 Hs Ht es eps u s v E) as Ex. cbv zeta in Ex. set (t := Sim _ _ _) in Ex.
  unfold cameras_alignment. cbn [still half_turns plain cs_R List.length Nat.eqb negb String.eqb Ascii.eqb Bool.eqb].
  change (plain [id3; id3; id3] [o3; o3; o3]) with still in *. change (plain [diag (V3 1 (-1) (-1)); diag (V3 (-1) 1 (-1)); diag (V3 (-1) (-1) 1)] [o3; o3; o3]) with half_turns in *.
  rewrite Ex. cbn [rbind]. eexists. split; [reflexivity|]. cbn [cs_R still plain map rot t]. rewrite S, mul3_1_r. reflexivity.
Qed.
(* negative scale *)
Definition apart : cameras := plain [id3; id3] [V3 1 0 0; V3 (-1) 0 0].
Definition swapped : cameras := plain [id3; id3] [V3 (-1) 0 0; V3 1 0 0].
Lemma apart_ok : cameras_ok apart 2 /\ cameras_ok swapped 2.
Proof. split; (split; [lia|]; split; [reflexivity|]; split; [reflexivity|]; repeat constructor; exact id3_orthogonal). Qed.
Lemma apart_spread : spread apart = 1.
Proof.
  unfold spread, variance, centre, poses, apart, plain. cbn [cs_R cs_T combine List.length repeat map]. unfold seat, vmul3, tr3, id3.
  cbn [fst snd x3 y3 z3 m00 m01 m02 m10 m11 m12 m20 m21 m22 sum3]. rewrite !rsum_cons, rsum_nil. unfold sqdist. cbn [x3 y3 z3]. field.
Qed.
Lemma swaps svd eps : svd_of (turn_cov (poses apart) (poses swapped)) (svd (turn_cov (poses apart) (poses swapped))) -> 0 < eps <= / 3 ->
  exists cs', cameras_alignment svd apart swapped true "extrinsics" eps = Ok cs' /\ poses cs' = poses swapped.
Proof.
  intros S E. destruct apart_ok as (Hs & Ht). destruct (extrinsics_exact svd apart swapped 2 true eps (Sim id3 o3 (-1)) Hs Ht S) as (cs' & A & _ & B).
  - lra.
  - intros _. right. rewrite apart_spread. lra.
  - exact id3_orthogonal.
  - discriminate.
  - unfold poses, apart, swapped, plain, realigned, o3. cbn [cs_R cs_T combine map fst snd rot shift scale]. rewrite mul3_1_l. unfold vmul3, add3, scal3, id3.
    cbn [x3 y3 z3 m00 m01 m02 m10 m11 m12 m20 m21 m22]. repeat f_equal; ring.
  - exists cs'. split; [exact A|exact B].
Qed.
Lemma no_similarity cs' : poses cs' = poses swapped ->
  ~ exists t, proper (rot t) /\ 0 < scale t /\ poses cs' = map (realigned t) (poses apart).
Proof.
  intros E (t & _ & P & F). rewrite E in F. unfold poses, apart, swapped, plain, realigned in F. cbn [cs_R cs_T combine map fst snd] in F. injection F as R1 F1 F2 F3 R2 G1 G2 G3.
  unfold vmul3, add3, scal3, id3 in *. cbn [x3 y3 z3 m00 m01 m02 m10 m11 m12 m20 m21 m22] in *. lra.
Qed.
