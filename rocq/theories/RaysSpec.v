(* Vocabulary for the statements about ray bundles. *)
From Verif Require Import Base Packing RBase Geom LinAlg Transform TransformSpec Camera CameraSpec Implicit ImplicitSpec Rays.
Local Open Scope R_scope.

(* the camera with number i: its view is X r + t, and c sends view coordinates to NDC (a camera given in
   screen space stands for the NDC camera with the same image) *)
Definition ndc_camera (cs : cameras) (i : nat) (c : intr) (r : mat3) (t : vec3) : Prop :=
  exists c0, camera_at cs i c0 r t /\
    if in_ndc cs then c = c0
    else exists l s, cs_size cs = Some l /\ batch_nth l i = Some s /\ c = ndc_equivalent s c0.
Definition perspective (c : intr) : Prop := match cls_of c with CFoVPersp | CPersp => True | _ => False end.
(* the point of the ray at parameter z *)
Definition along (o d : vec3) (z : R) : vec3 := V3 (x3 o + z * x3 d) (y3 o + z * y3 d) (z3 o + z * z3 d).
(* the view point v is seen at image location p *)
Definition seen_at (c : intr) (v : vec3) (p : R * R) : Prop :=
  exists q, pinhole c v = Some q /\ x3 q = fst p /\ y3 q = snd p.
(* rows of an orthogonal matrix *)
Definition orthogonal (r : mat3) : Prop := mul3 r (tr3 r) = id3.

(* the documented behaviour of torch.multinomial on non-negative weights *)
Definition draws_ok (w : list R) (replacement : bool) (n : nat) (idx : list nat) : Prop :=
  length idx = n /\ Forall (fun i => (i < length w)%nat) idx /\
  (replacement = true -> Forall (fun i => 0 < nth i w 0) idx) /\
  (replacement = false -> NoDup idx /\ ((n <= positives w)%nat -> Forall (fun i => 0 < nth i w 0) idx)).
Definition torch_multinomial (mult : nat -> bool -> nat -> list (list R) -> nat -> result (list (list nat))) : Prop :=
  (forall k rep cols w n res, mult k rep cols w n = Ok res -> (0 < n)%nat /\ Forall2 (fun row idx => draws_ok row rep n idx) w res) /\
  (forall k cols w n, (cols < n)%nat -> mult k false cols w n = Fail ERuntime) /\
  (forall k rep cols w, mult k rep cols w 0%nat = Fail ERuntime).

(* cameras whose projections are proper *)
Definition good_cameras (cs : cameras) : Prop :=
  cams_wf cs /\ cs_K cs = None /\ (0 < cs_n cs)%nat /\ (forall c, In c (cs_int cs) -> regular c) /\
  (forall r, In r (cs_R cs) -> det3 r <> 0) /\
  (in_ndc cs = false -> exists l, cs_size cs = Some l /\ forall s, In s l -> scale_of s <> 0).
(* the line o + z d consists of the points that camera i sees at p; z is the depth seen from the camera *)
Definition ray_through (cs : cameras) (i : nat) (p : R * R) (o d : vec3) : Prop :=
  exists c r t, ndc_camera cs i c r t /\ (perspective c -> view_of r t o = V3 0 0 0) /\
    forall z, z3 (view_of r t (along o d z)) = z /\ ((perspective c -> z <> 0) -> seen_at c (view_of r t (along o d z)) p).
(* a ray of camera i through its own pixel *)
Definition ray_of (unit : bool) (cs : cameras) (i : nat) (ry : ray) : Prop :=
  exists o d, origin ry = Some o /\ direction ry = Some (if unit then normalize d else d) /\ ray_through cs i (xy ry) o d.
(* n pixels drawn from the grid where the weight is positive, without repetition when there are enough *)
Definition drawn_from (grid : list (R * R)) (w : list R) (n : nat) (xs : list (R * R)) : Prop :=
  exists idx, length idx = n /\ map (nth_error grid) idx = map Some xs /\
    Forall (fun i => 0 < nth i w 0) idx /\ ((n <= positives w)%nat -> NoDup idx).
(* the default number of rays per image: the largest n that no mask sum falls below *)
Definition smallest_mask (m : list (list R)) (n : nat) : Prop :=
  (forall w, In w m -> INR n <= rsum w) /\ (exists w, In w m /\ rsum w < INR n + 1).
(* an image location inside a rectangle *)
Definition in_window (min_x max_x min_y max_y : R) (p : R * R) : Prop := min_x <= fst p <= max_x /\ min_y <= snd p <= max_y.
