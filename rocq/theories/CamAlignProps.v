(* C76: corresponding_cameras_alignment. *)
From Coq Require Import String.
From Verif Require Import Base RBase Geom LinAlg Camera CameraSpec Alignment AlignmentSpec CamAlign CamAlignSpec.
From Verif Require AlignmentProps CamAlignProofs CamAlignProofs2 CamAlignProofs3.
Local Open Scope R_scope.

(* the result is one similarity of the source cameras: everything but R and T is kept, and aligned camera i sees x as
   source camera i sees (x R_A + T_A) / s_A, up to the factor s_A: at the same place of a perspective image *)
Theorem aligned_cameras_see_the_same : forall svd src tgt es mode eps cs', cameras_alignment svd src tgt es mode eps = Ok cs' ->
  exists t, poses cs' = map (realigned t) (poses src) /\ same_but_poses cs' src /\
    (scale t <> 0 -> forall i p p' x, nth_error (poses src) i = Some p -> nth_error (poses cs') i = Some p' ->
       view_of (fst p') (snd p') x = scal3 (scale t) (view_of (fst p) (snd p) (partner t x)) /\
       forall c, cls_of c = CPersp \/ cls_of c = CFoVPersp ->
         option_map (fun q => (x3 q, y3 q)) (pinhole c (view_of (fst p') (snd p') x)) =
         option_map (fun q => (x3 q, y3 q)) (pinhole c (view_of (fst p) (snd p) (partner t x)))).
Proof. exact CamAlignProofs3.same_view. Qed.
Print Assumptions aligned_cameras_see_the_same.

(* extrinsics: the orthogonal R_A is the best for the rotations, (T_A, s_A) the best for the translations *)
Theorem extrinsics_least_squares : forall svd src tgt n es eps, cameras_ok src n -> cameras_ok tgt n ->
  svd_of (turn_cov (poses src) (poses tgt)) (svd (turn_cov (poses src) (poses tgt))) -> 0 < eps ->
  (es = true -> spread src = 0 \/ 3 * eps <= spread src) ->
  exists cs' t, cameras_alignment svd src tgt es "extrinsics" eps = Ok cs' /\ same_but_poses cs' src /\
    poses cs' = map (realigned t) (poses src) /\ orthogonal (rot t) /\ (es = false -> scale t = 1) /\
    (forall t', orthogonal (rot t') -> turn_error t (poses src) (poses tgt) <= turn_error t' (poses src) (poses tgt)) /\
    (forall t', (es = false -> scale t' = 1) -> shift_error t (poses src) (poses tgt) <= shift_error t' (poses src) (poses tgt)).
Proof. exact CamAlignProofs3.extrinsics_fit. Qed.
Print Assumptions extrinsics_least_squares.
(* cameras that differ by such a transform are aligned exactly *)
Theorem extrinsics_recover : forall svd src tgt n es eps t0, cameras_ok src n -> cameras_ok tgt n ->
  svd_of (turn_cov (poses src) (poses tgt)) (svd (turn_cov (poses src) (poses tgt))) -> 0 < eps ->
  (es = true -> spread src = 0 \/ 3 * eps <= spread src) ->
  orthogonal (rot t0) -> (es = false -> scale t0 = 1) -> poses tgt = map (realigned t0) (poses src) ->
  exists cs', cameras_alignment svd src tgt es "extrinsics" eps = Ok cs' /\ same_but_poses cs' src /\ poses cs' = poses tgt.
Proof. exact CamAlignProofs3.extrinsics_exact. Qed.
Print Assumptions extrinsics_recover.

(* centers: a proper rotation; the centres of the aligned cameras are the images of the source centres under the
   similarity that fits them best to the target centres *)
Theorem centers_least_squares : forall svd src tgt n es eps, cameras_ok src n -> cameras_ok tgt n -> 0 < eps <= 1 ->
  (let w := repeat 1 n in let a := map seat (poses src) in let b := map seat (poses tgt) in svd_of (moment w a b) (svd (moment w a b))) ->
  (es = true -> eps <= spread src) ->
  exists cs' t u, cameras_alignment svd src tgt es "centers" eps = Ok cs' /\ same_but_poses cs' src /\
    poses cs' = map (realigned t) (poses src) /\ proper (rot t) /\ scale t = scale u /\
    map seat (poses cs') = map (image u) (map seat (poses src)) /\
    best_fit es false (repeat 1 n) (map seat (poses src)) (map seat (poses tgt)) u.
Proof. exact CamAlignProofs3.centers_fit. Qed.
Print Assumptions centers_least_squares.
(* seat is the centre: the point a camera sees at its origin *)
Theorem seat_is_centre : forall cs n, cameras_ok cs n -> snd (camera_center no_kw cs) = Ok (map seat (poses cs)).
Proof. intros cs n. exact (CamAlignProofs2.center_all n cs). Qed.
Print Assumptions seat_is_centre.

Theorem cameras_alignment_rejects : forall svd src tgt es mode eps,
  List.length (cs_R src) <> List.length (cs_R tgt) \/ (mode <> "centers"%string /\ mode <> "extrinsics"%string) ->
  cameras_alignment svd src tgt es mode eps = Fail EValue.
Proof. exact CamAlignProofs3.rejects. Qed.
Print Assumptions cameras_alignment_rejects.

(* findings: "it cannot be a reflection" fails for extrinsics. Three cameras turned by half turns about the axes get
   R = -1; two cameras with exchanged translations get scale -1 *)
Theorem extrinsics_no_reflection_refuted : exists src tgt,
  cameras_ok src 3 /\ cameras_ok tgt 3 /\ List.Forall proper (cs_R src) /\ List.Forall proper (cs_R tgt) /\
  forall svd es eps, svd_of (turn_cov (poses src) (poses tgt)) (svd (turn_cov (poses src) (poses tgt))) ->
  exists cs', cameras_alignment svd src tgt es "extrinsics" eps = Ok cs' /\ List.Forall (fun r => det3 r = -1) (cs_R cs').
Proof.
  destruct CamAlignProofs3.half_turns_ok as (A & B & C & D). exists CamAlignProofs3.still, CamAlignProofs3.half_turns.
  split; [exact A|]. split; [exact B|]. split; [exact C|]. split; [exact D|]. intros svd es eps S.
  destruct (CamAlignProofs3.reflects svd es eps S) as (cs' & E & F). exists cs'. split; [exact E|]. rewrite F. repeat constructor; unfold det3, mscal3, id3; cbn; ring.
Qed.
Print Assumptions extrinsics_no_reflection_refuted.
Theorem extrinsics_positive_scale_refuted : exists src tgt,
  cameras_ok src 2 /\ cameras_ok tgt 2 /\
  forall svd eps, svd_of (turn_cov (poses src) (poses tgt)) (svd (turn_cov (poses src) (poses tgt))) -> 0 < eps <= / 3 ->
  exists cs', cameras_alignment svd src tgt true "extrinsics" eps = Ok cs' /\
    ~ exists t, proper (rot t) /\ 0 < scale t /\ poses cs' = map (realigned t) (poses src).
Proof.
  destruct CamAlignProofs3.apart_ok as (A & B). exists CamAlignProofs3.apart, CamAlignProofs3.swapped. split; [exact A|]. split; [exact B|].
  intros svd eps S E. destruct (CamAlignProofs3.swaps svd eps S E) as (cs' & F & G). exists cs'. split; [exact F|]. exact (CamAlignProofs3.no_similarity cs' G).
Qed.
Print Assumptions extrinsics_positive_scale_refuted.

(* the hypotheses are met: two cameras apart, with a decomposition of any matrix *)
Example alignment_ex : cameras_ok CamAlignProofs3.apart 2 /\ spread CamAlignProofs3.apart = 1 /\
  exists svd, svd_of (turn_cov (poses CamAlignProofs3.apart) (poses CamAlignProofs3.swapped)) (svd (turn_cov (poses CamAlignProofs3.apart) (poses CamAlignProofs3.swapped))).
Proof.
  split; [exact (proj1 CamAlignProofs3.apart_ok)|]. split; [exact CamAlignProofs3.apart_spread|].
  destruct (AlignmentProps.svd_contract_met (turn_cov (poses CamAlignProofs3.apart) (poses CamAlignProofs3.swapped))) as (r & H). exists (fun _ => r). exact H.
Qed.
