(* Model of /repo/pytorch3d/implicitron/models/renderer/ray_tracing.py: where rays meet the surface
   of a signed distance function.  Numbers are reals.  The function is evaluated point by point; all
   the rays of a batch are one list.  argmin is a parameter because its choice among equal values is
   not specified. *)
From Coq Require Import Reals List Bool Arith.
From Verif Require Import Base RBase Geom.
Import ListNotations.
Local Open Scope R_scope.

(* RayTracing, the fields, 40-46 *)
Record tracer := Tracer { sphere : R; threshold : R; line_search_step : R; line_step_iters : nat;
  tracing_iters : nat; n_steps : nat; n_secant_steps : nat }.
Record ray := Ray { origin : vec3; direction : vec3; in_object : bool }.
(* cam_loc + dis * ray_directions *)
Definition at_ (r : ray) (t : R) : vec3 := add3 (origin r) (scal3 t (direction r)).
Definition zero3 : vec3 := V3 0 0 0.

(* _get_sphere_intersection, 562-592: near and far distance, and whether the line meets the sphere *)
Definition under_sqrt (s : R) (r : ray) : R :=
  dot3 (direction r) (origin r) ^ 2 - (norm3 (origin r) ^ 2 - s ^ 2).
Definition meets (s : R) (r : ray) : bool := Rltb 0 (under_sqrt s r).
Definition sphere_intersection (s : R) (r : ray) : R * R :=
  if meets s r then
    (Rmax (sqrt (under_sqrt s r) * -1 - dot3 (direction r) (origin r)) 0,
     Rmax (sqrt (under_sqrt s r) * 1 - dot3 (direction r) (origin r)) 0)
  else (Rmax 0 0, Rmax 0 0).

Section trace.
Variables (argmin : list R -> nat) (tr : tracer) (sdf : vec3 -> R).

(* ---- sphere_tracing, 160-337 ---- *)
(* one end of a ray: distance, still moving, value there (next_sdf), value used for the step (curr_sdf) *)
Record side := Side { acc : R; moving : bool; next : R; cur : R }.
Record state := State { of : ray; point : vec3; near : side; far : side }.
(* 192-235 *)
Definition start (r : ray) : state :=
  let (t0, t1) := sphere_intersection (sphere tr) r in
  if meets (sphere tr) r then
    State r (at_ r t0) (Side t0 true (sdf (at_ r t0)) 0) (Side t1 true (sdf (at_ r t1)) 0)
  else State r zero3 (Side 0 false 0 0) (Side 0 false 0 0).
(* 238-255 *)
Definition update_side (s : side) : side :=
  let c := if moving s then next s else 0 in
  let c := if Rleb c (threshold tr) then 0 else c in
  Side (acc s) (moving s && Rltb (threshold tr) c) (next s) c.
Definition update (x : state) : state := State (of x) (point x) (update_side (near x)) (update_side (far x)).
(* 263-287; the far end moves back, sign is 1 or -1 *)
Definition step_side (r : ray) (sign : R) (s : side) : side :=
  let a := acc s + sign * cur s in
  Side a (moving s) (if moving s then sdf (at_ r a) else 0) (cur s).
Definition step (x : state) : state :=
  let n := step_side (of x) 1 (near x) in
  State (of x) (at_ (of x) (acc n)) n (step_side (of x) (-1) (far x)).
(* 289-323, iteration k *)
Definition crossed (s : side) : bool := Rltb (next s) 0.
Definition back_side (r : ray) (sign : R) (k : nat) (s : side) : side :=
  if crossed s then
    let a := acc s - sign * ((1 - line_search_step tr) / 2 ^ k * cur s) in
    Side a (moving s) (sdf (at_ r a)) (cur s)
  else s.
Definition back (k : nat) (x : state) : state :=
  let n := back_side (of x) 1 k (near x) in
  State (of x) (if crossed (near x) then at_ (of x) (acc n) else point x) n (back_side (of x) (-1) k (far x)).
Fixpoint back_loop (fuel k : nat) (xs : list state) : list state :=
  match fuel with
  | O => xs
  | S fuel => if existsb (fun x => crossed (near x) || crossed (far x)) xs then back_loop fuel (S k) (map (back k) xs) else xs
  end.
(* 325-328 *)
Definition stop_side (go : bool) (s : side) : side := Side (acc s) (moving s && go) (next s) (cur s).
Definition stop (x : state) : state :=
  let go := Rltb (acc (near x)) (acc (far x)) in
  State (of x) (point x) (stop_side go (near x)) (stop_side go (far x)).
(* 237-328; n is the number of iterations left *)
Fixpoint tracing (n : nat) (xs : list state) : list state :=
  let xs := map update xs in
  if negb (existsb (fun x => moving (near x)) xs) && negb (existsb (fun x => moving (far x)) xs) then xs
  else match n with
       | O => xs
       | S n => tracing n (map stop (back_loop (line_step_iters tr) 0 (map step xs)))
       end.

(* ---- secant, 478-507: for one ray, as a function of the distance ---- *)
Definition secant_guess (f_low f_high z_low z_high : R) : R :=
  - f_low * (z_high - z_low) / (f_high - f_low) + z_low.
Fixpoint secant (n : nat) (r : ray) (f_low f_high z_low z_high : R) : R :=
  let z := secant_guess f_low f_high z_low z_high in
  match n with
  | O => z
  | S n =>
      let f := sdf (at_ r z) in
      if Rltb 0 f then secant n r f f_high z z_high
      else if Rltb f 0 then secant n r f_low f z_low z
      else secant n r f_low f_high z_low z_high
  end.

(* ---- ray_sampler, 339-476, for one ray ---- *)
(* torch.linspace(0, 1, n) *)
Definition linspace01 (n : nat) : list R :=
  match n with 1%nat => [0] | _ => map (fun i => INR i / INR (n - 1)) (seq 0 n) end.
Definition sign (x : R) : R := if Rltb 0 x then 1 else if Rltb x 0 then -1 else 0.
(* 391-393 *)
Definition ranking (fs : list R) : list R :=
  map (fun iv => sign (snd iv) * INR (length fs - fst iv)) (combine (seq 0 (length fs)) fs).
(* the entry of index i - 1, of the last entry for an index of zero *)
Definition previous (i n : nat) : nat := match i with O => n - 1 | S i => i end.
(* point, whether a surface is found, distance; an argmin of no samples raises *)
Definition ray_sampler (training : bool) (r : ray) (t0 t1 : R) : result (vec3 * bool * R) :=
  let n := n_steps tr in
  if (n =? 0)%nat then Fail EIndex
  else
    let zs := map (fun u => t0 + u * (t1 - t0)) (linspace01 n) in
    let fs := map (fun z => sdf (at_ r z)) zs in
    let i := argmin (ranking fs) in
    fi <- rget fs i ;; zi <- rget zs i ;;
    let net := Rltb fi 0 in
    (* 403-423 *)
    z <- (if in_object r && net then Ok zi else rget zs (argmin fs)) ;;
    (* 429-474 *)
    if (if training then net && in_object r else net) then
      z_low <- rget zs (previous i n) ;; f_low <- rget fs (previous i n) ;;
      let z := secant (n_secant_steps tr) r f_low fi z_low zi in
      Ok (at_ r z, net, z)
    else Ok (at_ r z, net, z).

(* ---- minimal_sdf_points, 509-558, for one ray; us are the uniform numbers ---- *)
Definition minimal_sdf_point (us : list R) (r : ray) (t0 t1 : R) : result (vec3 * R) :=
  let zs := map (fun u => u * (t1 - t0) + t0) us in
  z <- rget zs (argmin (map (fun z => sdf (at_ r z)) zs)) ;; Ok (at_ r z, z).

(* ---- forward, 48-158 ---- *)
(* 96-116: point, found, distance *)
Definition settle (training : bool) (x : state) : result (vec3 * bool * R) :=
  if moving (near x) then ray_sampler training (of x) (acc (near x)) (acc (far x))
  else Ok (point x, Rltb (acc (near x)) (acc (far x)), acc (near x)).
(* 121-156 *)
Definition refine (us : list R) (x : state) (out : vec3 * bool * R) : result (vec3 * bool * R) :=
  let '(p, net, z) := out in
  let sampled := moving (near x) in
  let in_mask := negb net && in_object (of x) && negb sampled in
  let out_mask := negb (in_object (of x)) && negb sampled in
  let hit := meets (sphere tr) (of x) in
  if (in_mask || out_mask) && negb hit then
    let z := - dot3 (direction (of x)) (origin (of x)) in Ok (at_ (of x) z, net, z)
  else if (in_mask || out_mask) && hit then
    let (t0, t1) := sphere_intersection (sphere tr) (of x) in
    pz <- minimal_sdf_point us (of x) (if net && out_mask then z else t0) t1 ;;
    Ok (fst pz, net, snd pz)
  else Ok (p, net, z).
Definition forward (training : bool) (us : list R) (rays : list ray) : result (list (vec3 * bool * R)) :=
  rmap (fun x => out <- settle training x ;; if training then refine us x out else Ok out)
    (tracing (tracing_iters tr) (map start rays)).
End trace.
