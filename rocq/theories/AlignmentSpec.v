(* Vocabulary for the statements about corresponding_points_alignment and
   iterative_closest_point. *)
From Verif Require Import Base RBase Geom LinAlg Alignment.
Local Open Scope R_scope.

Definition orthogonal (m : mat3) : Prop := mul3 m (tr3 m) = id3.
Definition proper (m : mat3) : Prop := orthogonal m /\ det3 m = 1.
Definition diag (s : vec3) : mat3 := M3 (x3 s) 0 0 0 (y3 s) 0 0 0 (z3 s).
(* u, s, v is a singular value decomposition of m *)
Definition svd_of (m : mat3) (r : mat3 * vec3 * mat3) : Prop :=
  let '(u, s, v) := r in
  orthogonal u /\ orthogonal v /\ 0 <= z3 s <= y3 s /\ y3 s <= x3 s /\
  m = mul3 (mul3 u (diag s)) (tr3 v).

(* a padded batch: [width] slots per row, of which the first [nums] are points *)
Definition padded_batch (x : points) : Prop :=
  length (nums x) = length (rows x) /\
  Forall (fun r => length r = width x) (rows x) /\
  Forall (fun k => (k <= width x)%nat) (nums x).
(* the points of the i-th cloud *)
Definition cloud (x : points) (i : nat) : list vec3 := firstn (nth i (nums x) 0%nat) (nth i (rows x) []).
(* the weights given to the points of the i-th cloud *)
Definition given_weights (x : points) (w : weights_arg) (i : nat) : list R :=
  match w with
  | WNone => repeat 1 (nth i (nums x) 0%nat)
  | WTensor _ l | WList l => firstn (nth i (nums x) 0%nat) (nth i l [])
  end.

(* sum of f over corresponding weights and points *)
Fixpoint sum3 (f : R -> vec3 -> vec3 -> R) (w : list R) (x y : list vec3) : R :=
  match w, x, y with
  | a :: w', p :: x', q :: y' => f a p q + sum3 f w' x' y'
  | _, _, _ => 0
  end.
Definition sqdist (p q : vec3) : R := (x3 p - x3 q) ^ 2 + (y3 p - y3 q) ^ 2 + (z3 p - z3 q) ^ 2.
(* the image s x R + T of a point *)
Definition image (t : similarity) (x : vec3) : vec3 :=
  add3 (scal3 (scale t) (vmul3 x (rot t))) (shift t).
(* sum of w |s x R + T - y|^2 *)
Definition misfit (w : list R) (x y : list vec3) (t : similarity) : R :=
  sum3 (fun a p q => a * sqdist (image t p) q) w x y.
(* centre of mass, and moment of inertia about it *)
Definition centre (w : list R) (x : list vec3) : vec3 :=
  let total := rsum w in
  V3 (sum3 (fun a p _ => a * x3 p) w x x / total) (sum3 (fun a p _ => a * y3 p) w x x / total)
     (sum3 (fun a p _ => a * z3 p) w x x / total).
Definition variance (w : list R) (x : list vec3) : R :=
  sum3 (fun a p _ => a * sqdist p (centre w x)) w x x / rsum w.
(* the matrix of the sums of w^2 (x - centre)_r (y - centre)_c, over the total weight *)
Definition moment (w : list R) (x y : list vec3) : mat3 :=
  let cx := centre w x in let cy := centre w y in
  let e (f g : vec3 -> R) := sum3 (fun a p q => a * f (sub3 p cx) * (a * g (sub3 q cy))) w x y / rsum w in
  M3 (e x3 x3) (e x3 y3) (e x3 z3) (e y3 x3) (e y3 y3) (e y3 z3) (e z3 x3) (e z3 y3) (e z3 z3).

(* the transforms the caller asked for *)
Definition allowed (estimate_scale allow_reflection : bool) (t : similarity) : Prop :=
  (if allow_reflection then orthogonal (rot t) else proper (rot t)) /\
  (if estimate_scale then 0 <= scale t else scale t = 1).
Definition best_fit (es ar : bool) (w : list R) (x y : list vec3) (t : similarity) : Prop :=
  allowed es ar t /\ forall t', allowed es ar t' -> misfit w x y t <= misfit w x y t'.

(* X and Y have the same shape and the weights match X *)
Definition same_sizes (x y : points) : Prop :=
  length (rows x) = length (rows y) /\ width x = width y /\ nums x = nums y.
Definition weights_fit (x : points) (w : weights_arg) : Prop :=
  match w with
  | WNone => True
  | WTensor n l => length l = length (rows x) /\ n = width x /\ Forall (fun r => length r = n) l
  | WList l => map (@length R) l = nums x /\ max_nat (nums x) = width x
  end.

(* ---- iterative_closest_point ---- *)
Definition ones (x : list vec3) : list R := repeat 1 (length x).
Definition nearest_in (ys : list vec3) (p q : vec3) : Prop :=
  In q ys /\ forall q', In q' ys -> sqdist p q <= sqdist p q'.
(* one iteration of the algorithm takes the transform t to t', leaving the root mean squared
   error e: t' fits the points xs best to the nearest neighbours, in ys, of their images under t *)
Definition iterates (es ar : bool) (xs ys : list vec3) (t t' : similarity) (e : R) : Prop :=
  exists nn, Forall2 (fun p q => nearest_in ys (image t p) q) xs nn /\
    best_fit es ar (ones xs) xs nn t' /\
    e = sqrt (misfit (ones xs) xs nn t' / INR (length xs)).
(* the relative decrease of the error is at most thr: 1 before there is a previous error, and
   undefined (so not small) after an error of 0 *)
Definition slow (thr : R) (prev : option R) (e : R) : Prop :=
  match prev with None => 1 <= thr | Some p => p <> 0 /\ (p - e) / p <= thr end.
(* the case in which the code leaves the padding of X out: some pair of clouds differs in size,
   or nothing is padded *)
Definition ignores_padding (x y : points) : Prop :=
  nums x <> nums y \/ Forall (fun k => k = width x) (nums x).
Definition start_of (x : points) (init : option (list similarity)) (i : nat) : similarity :=
  match init with
  | None => Sim id3 (V3 0 0 0) 1
  | Some ts => nth i ts (Sim id3 (V3 0 0 0) 1)
  end.

(* the transform of cloud i after n iterations, the error before iteration n (if there was an
   earlier one), and the stopping test at iteration n *)
Definition transform_at (x : points) (init : option (list similarity)) (h : list (list similarity)) (n i : nat) : similarity :=
  match n with O => start_of x init i | S k => nth i (nth k h []) (Sim id3 (V3 0 0 0) 1) end.
Definition error_at (errs : list (list R)) (n i : nat) : R := nth i (nth n errs []) 0.
Definition error_before (errs : list (list R)) (n i : nat) : option R :=
  match n with O => None | S k => Some (error_at errs k i) end.
Definition stops_at (thr : R) (b : nat) (errs : list (list R)) (n : nat) : Prop :=
  forall i, (i < b)%nat -> slow thr (error_before errs n i) (error_at errs n i).
(* sol is the outcome of at most m iterations of the algorithm, with these errors *)
Record icp_run (es ar : bool) (thr : R) (x y : points) (init : option (list similarity)) (m : nat)
    (sol : solution) (errs : list (list R)) : Prop := {
  run_history : length (history sol) = length errs;
  run_bounded : (length errs <= m)%nat;
  run_rows : forall n, (n < length errs)%nat -> length (nth n errs []) = length (rows x);
  run_iterates : forall n i, (n < length errs)%nat -> (i < length (rows x))%nat ->
    iterates es ar (cloud x i) (cloud y i) (transform_at x init (history sol) n i)
             (transform_at x init (history sol) (S n) i) (error_at errs n i);
  run_going : forall n, (S n < length errs)%nat -> ~ stops_at thr (length (rows x)) errs n;
  run_stopped : converged sol = true ->
    exists n, length errs = S n /\ stops_at thr (length (rows x)) errs n;
  run_exhausted : converged sol = false ->
    length errs = m /\ forall n, (n < m)%nat -> ~ stops_at thr (length (rows x)) errs n;
  run_rmse : rmse sol = match length errs with O => None | S n => Some (nth n errs []) end;
  run_rts : length (rts sol) = length (rows x) /\ forall i, (i < length (rows x))%nat ->
    nth i (rts sol) (Sim id3 (V3 0 0 0) 1) = transform_at x init (history sol) (length errs) i;
  run_moved : forall i, (i < length (rows x))%nat ->
    firstn (nth i (nums x) 0%nat) (nth i (moved sol) []) =
    map (image (nth i (rts sol) (Sim id3 (V3 0 0 0) 1))) (cloud x i) }.
