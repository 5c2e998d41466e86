(* Model of csrc/utils/geometry_utils.h, vec2.h, vec3.h. Scalars are exact reals. *)
From Verif Require Import Base RBase.
Local Open Scope R_scope.

(* ---- vec2.h, vec3.h ---- *)
Record vec2 := V2 { x2 : R; y2 : R }.
Record vec3 := V3 { x3 : R; y3 : R; z3 : R }.
Definition add2 a b := V2 (x2 a + x2 b) (y2 a + y2 b).
Definition sub2 a b := V2 (x2 a - x2 b) (y2 a - y2 b).
Definition scal2 c a := V2 (c * x2 a) (c * y2 a).
Definition dot2 a b := x2 a * x2 b + y2 a * y2 b.
Definition add3 a b := V3 (x3 a + x3 b) (y3 a + y3 b) (z3 a + z3 b).
Definition sub3 a b := V3 (x3 a - x3 b) (y3 a - y3 b) (z3 a - z3 b).
Definition scal3 c a := V3 (c * x3 a) (c * y3 a) (c * z3 a).
(* operator/ throws when the divisor is 0; every caller below divides by a sum that
   contains an epsilon or by a tested squared length *)
Definition div3 a c := V3 (x3 a / c) (y3 a / c) (z3 a / c).
Definition dot3 a b := x3 a * x3 b + y3 a * y3 b + z3 a * z3 b.
Definition cross3 a b :=
  V3 (y3 a * z3 b - z3 a * y3 b) (z3 a * x3 b - x3 a * z3 b) (x3 a * y3 b - y3 a * x3 b).
Definition norm3 a := sqrt (dot3 a a).

(* geometry_utils.h:20 *)
Definition kEps : R := / 100000000.
(* 603 *)
Definition vEps : R := / 100000000.

(* ---- edge function: 52-84 ---- *)
Definition edge (p v0 v1 : vec2) : R :=
  (x2 p - x2 v0) * (y2 v1 - y2 v0) - (y2 p - y2 v0) * (x2 v1 - x2 v0).
Definition edge_bwd (p v0 v1 : vec2) (g : R) : vec2 * vec2 * vec2 :=
  (scal2 g (V2 (y2 v1 - y2 v0) (x2 v0 - x2 v1)),
   scal2 g (V2 (y2 p - y2 v1) (x2 v1 - x2 p)),
   scal2 g (V2 (y2 v0 - y2 p) (x2 p - x2 v0))).

(* ---- barycentric coordinates: 95-106, 121-184 ---- *)
Definition bary (p v0 v1 v2 : vec2) : vec3 :=
  let area := edge v2 v0 v1 + kEps in
  V3 (edge p v1 v2 / area) (edge p v2 v0 / area) (edge p v0 v1 / area).

Definition bary_bwd (p v0 v1 v2 : vec2) (gw : vec3) : vec2 * vec2 * vec2 * vec2 :=
  let area := edge v2 v0 v1 + kEps in
  let area2 := area ^ 2 in
  let area_inv := 1 / area in
  let e0 := edge p v1 v2 in
  let e1 := edge p v2 v0 in
  let e2 := edge p v0 v1 in
  let '(de0_p, de0_a, de0_b) := edge_bwd p v1 v2 (x3 gw * area_inv) in
  let '(da0_p, da0_a, da0_b) := edge_bwd v2 v0 v1 (x3 gw * (- e0 / area2)) in
  let dw0_p := de0_p in
  let dw0_v0 := da0_a in
  let dw0_v1 := add2 de0_a da0_b in
  let dw0_v2 := add2 de0_b da0_p in
  let '(de1_p, de1_a, de1_b) := edge_bwd p v2 v0 (y3 gw * area_inv) in
  let '(da1_p, da1_a, da1_b) := edge_bwd v2 v0 v1 (y3 gw * (- e1 / area2)) in
  let dw1_p := de1_p in
  let dw1_v0 := add2 de1_b da1_a in
  let dw1_v1 := da1_b in
  let dw1_v2 := add2 de1_a da1_p in
  let '(de2_p, de2_a, de2_b) := edge_bwd p v0 v1 (z3 gw * area_inv) in
  let '(da2_p, da2_a, da2_b) := edge_bwd v2 v0 v1 (z3 gw * (- e2 / area2)) in
  let dw2_p := de2_p in
  let dw2_v0 := add2 de2_a da2_a in
  let dw2_v1 := add2 de2_b da2_b in
  let dw2_v2 := da2_p in
  (add2 (add2 dw0_p dw1_p) dw2_p, add2 (add2 dw0_v0 dw1_v0) dw2_v0,
   add2 (add2 dw0_v1 dw1_v1) dw2_v1, add2 (add2 dw0_v2 dw1_v2) dw2_v2).

(* ---- perspective correction: 193-206, 222-252 ---- *)
Definition persp (b : vec3) (z0 z1 z2 : R) : vec3 :=
  let w0_top := x3 b * z1 * z2 in
  let w1_top := y3 b * z0 * z2 in
  let w2_top := z3 b * z0 * z1 in
  let denom := Rmax (w0_top + w1_top + w2_top) kEps in
  V3 (w0_top / denom) (w1_top / denom) (w2_top / denom).
Definition persp_bwd (b : vec3) (z0 z1 z2 : R) (g : vec3) : vec3 * R * R * R :=
  let w0_top := x3 b * z1 * z2 in
  let w1_top := y3 b * z0 * z2 in
  let w2_top := z3 b * z0 * z1 in
  let denom := Rmax (w0_top + w1_top + w2_top) kEps in
  let grad_denom_top := - w0_top * x3 g - w1_top * y3 g - w2_top * z3 g in
  let grad_denom := grad_denom_top / (denom * denom) in
  let g0 := grad_denom + x3 g / denom in
  let g1 := grad_denom + y3 g / denom in
  let g2 := grad_denom + z3 g / denom in
  (V3 (g0 * z1 * z2) (g1 * z0 * z2) (g2 * z0 * z1),
   g1 * y3 b * z2 + g2 * z3 b * z1,
   g0 * x3 b * z2 + g2 * z3 b * z0,
   g0 * x3 b * z1 + g1 * y3 b * z0).

(* ---- clipping: 267-281, 294-361 ---- *)
Definition clipSum : R := / 100000.
Definition clip (b : vec3) : vec3 :=
  let wx := Rmax (x3 b) 0 in
  let wy := Rmax (y3 b) 0 in
  let wz := Rmax (z3 b) 0 in
  let w_sum := Rmax (wx + wy + wz) clipSum in
  V3 (wx / w_sum) (wy / w_sum) (wz / w_sum).
Definition clip_bwd (b g : vec3) : vec3 :=
  let wx := Rmax (x3 b) 0 in
  let wy := Rmax (y3 b) 0 in
  let wz := Rmax (z3 b) 0 in
  let s := wx + wy + wz in
  let grad_sum_clip := if Rltb s clipSum then 0 else 1 in
  let w_sum := if Rltb s clipSum then clipSum else s in
  let cx := if Rltb (x3 b) 0 then 0 else 1 in
  let cy := if Rltb (y3 b) 0 then 0 else 1 in
  let cz := if Rltb (z3 b) 0 then 0 else 1 in
  let sx := - wx / (w_sum ^ 2) * grad_sum_clip in
  let sy := - wy / (w_sum ^ 2) * grad_sum_clip in
  let sz := - wz / (w_sum ^ 2) * grad_sum_clip in
  V3 (cx * (x3 g * (1 / w_sum + sx) + y3 g * sy + z3 g * sz))
     (cy * (y3 g * (1 / w_sum + sy) + x3 g * sx + z3 g * sz))
     (cz * (z3 g * (1 / w_sum + sz) + x3 g * sx + y3 g * sy)).

(* ---- point to segment: 375-389, 392-406 ---- *)
Definition clamp01 (t : R) : R := Rmin (Rmax t 0) 1.
Definition pline2 (p v0 v1 : vec2) : R :=
  let v1v0 := sub2 v1 v0 in
  let l2 := dot2 v1v0 v1v0 in
  if Rleb l2 kEps then dot2 (sub2 p v1) (sub2 p v1)
  else let t := dot2 v1v0 (sub2 p v0) / l2 in
       let p_proj := add2 v0 (scal2 (clamp01 t) v1v0) in
       dot2 (sub2 p p_proj) (sub2 p p_proj).
Definition pline3 (p v0 v1 : vec3) : R :=
  let v1v0 := sub3 v1 v0 in
  let l2 := dot3 v1v0 v1v0 in
  if Rleb l2 kEps then dot3 (sub3 p v1) (sub3 p v1)
  else let t := dot3 v1v0 (sub3 p v0) / l2 in
       let p_proj := add3 v0 (scal3 (clamp01 t) v1v0) in
       dot3 (sub3 p p_proj) (sub3 p p_proj).
(* 420-439; divides by the squared length without a guard *)
Definition pline2_bwd (p v0 v1 : vec2) (g : R) : vec2 * vec2 * vec2 :=
  let v1v0 := sub2 v1 v0 in
  let pv0 := sub2 p v0 in
  let t := dot2 v1v0 pv0 / dot2 v1v0 v1v0 in
  let tt := clamp01 t in
  let p_proj := add2 (scal2 (1 - tt) v0) (scal2 tt v1) in
  (scal2 (-1 * g * 2) (sub2 p_proj p), scal2 (g * (1 - tt) * 2) (sub2 p_proj p),
   scal2 (g * tt * 2) (sub2 p_proj p)).
(* 442-484 *)
Definition pline3_bwd (p v0 v1 : vec3) (g : R) : vec3 * vec3 * vec3 :=
  let v1v0 := sub3 v1 v0 in
  let pv0 := sub3 p v0 in
  let t_bot := dot3 v1v0 v1v0 in
  let tt := dot3 v1v0 pv0 / t_bot in
  let zero := V3 0 0 0 in
  if Rltb t_bot kEps then
    let gp := scal3 (g * 2) pv0 in
    (gp, scal3 (- / 2) gp, scal3 (- / 2) gp)
  else if Rltb tt 0 then
    let gp := scal3 (g * 2) pv0 in (gp, scal3 (-1) gp, zero)
  else if Rltb 1 tt then
    let gp := scal3 (g * 2) (sub3 p v1) in (gp, zero, scal3 (-1) gp)
  else
    let p_proj := add3 v0 (scal3 tt v1v0) in
    let base := scal3 (g * 2) (sub3 p p_proj) in
    let gp := sub3 base (div3 (scal3 (dot3 base v1v0) v1v0) t_bot) in
    let dtt_v0 := div3 (add3 (sub3 (scal3 (-1) v1v0) pv0) (scal3 (2 * tt) v1v0)) t_bot in
    let gv0 := sub3 (scal3 (-1 + tt) base) (scal3 (dot3 base v1v0) dtt_v0) in
    let dtt_v1 := div3 (sub3 pv0 (scal3 (2 * tt) v1v0)) t_bot in
    let gv1 := sub3 (scal3 (- dot3 base v1v0) dtt_v1) (scal3 tt base) in
    (gp, gv0, gv1).

(* ---- 2d point to triangle boundary: 499-512, 526-570 ---- *)
Definition ptri2 (p v0 v1 v2 : vec2) : R :=
  Rmin (Rmin (pline2 p v0 v1) (pline2 p v0 v2)) (pline2 p v1 v2).
Definition ptri2_bwd (p v0 v1 v2 : vec2) (g : R) : vec2 * vec2 * vec2 * vec2 :=
  let e01 := pline2 p v0 v1 in
  let e02 := pline2 p v0 v2 in
  let e12 := pline2 p v1 v2 in
  let zero := V2 0 0 in
  if Rleb e01 e02 && Rleb e01 e12 then
    let '(gp, ga, gb) := pline2_bwd p v0 v1 g in (gp, ga, gb, zero)
  else if Rleb e02 e01 && Rleb e02 e12 then
    let '(gp, ga, gb) := pline2_bwd p v0 v2 g in (gp, ga, zero, gb)
  else if Rleb e12 e01 && Rleb e12 e02 then
    let '(gp, ga, gb) := pline2_bwd p v1 v2 g in (gp, zero, ga, gb)
  else (zero, zero, zero, zero).

(* ---- 3d point to triangle: 577-588, 607-630, 652-668, 670-702. The two epsilons are
   parameters so that their effect can be stated; the code is at kEps, vEps ---- *)
Definition area3 (v0 v1 v2 : vec3) : R :=
  let p0 := sub3 v1 v0 in
  let p1 := sub3 v2 v0 in
  let hypot a b := sqrt (a * a + b * b) in
  hypot (y3 p0 * z3 p1 - z3 p0 * y3 p1)
        (hypot (z3 p0 * x3 p1 - x3 p0 * z3 p1) (x3 p0 * y3 p1 - y3 p0 * x3 p1)) / 2.
Definition bary3 (ke : R) (p v0 v1 v2 : vec3) : vec3 :=
  let p0 := sub3 v1 v0 in
  let p1 := sub3 v2 v0 in
  let p2 := sub3 p v0 in
  let d00 := dot3 p0 p0 in
  let d01 := dot3 p0 p1 in
  let d11 := dot3 p1 p1 in
  let d20 := dot3 p2 p0 in
  let d21 := dot3 p2 p1 in
  let denom := d00 * d11 - d01 * d01 + ke in
  let w1 := (d11 * d20 - d01 * d21) / denom in
  let w2 := (d00 * d21 - d01 * d20) / denom in
  V3 (1 - w1 - w2) w1 w2.
Definition in01 (t : R) : bool := Rleb 0 t && Rleb t 1.
Definition inside3 (ke : R) (p v0 v1 v2 : vec3) (min_area : R) : bool :=
  if Rltb (area3 v0 v1 v2) min_area then false
  else let b := bary3 ke p v0 v1 v2 in in01 (x3 b) && in01 (y3 b) && in01 (z3 b).
Definition tri_normal (ve : R) (v0 v1 v2 : vec3) : vec3 :=
  let n := cross3 (sub3 v2 v0) (sub3 v1 v0) in div3 n (norm3 n + ve).
Definition ptri3 (ke ve : R) (p v0 v1 v2 : vec3) (min_area : R) : R :=
  let norm_normal := norm3 (cross3 (sub3 v2 v0) (sub3 v1 v0)) in
  let normal := tri_normal ve v0 v1 v2 in
  let t := dot3 (sub3 v0 p) normal in
  let p0 := add3 p (scal3 t normal) in
  if inside3 ke p0 v0 v1 v2 min_area && Rltb ke norm_normal then t * t
  else
    let e01 := pline3 p v0 v1 in
    let e02 := pline3 p v0 v2 in
    let e12 := pline3 p v1 v2 in
    let d := if Rltb e02 e01 then e02 else e01 in
    if Rltb e12 d then e12 else d.

(* 705-738 *)
Definition cross_bwd (a b g : vec3) : vec3 * vec3 :=
  (V3 (- y3 g * z3 b + z3 g * y3 b) (x3 g * z3 b - z3 g * x3 b) (- x3 g * y3 b + y3 g * x3 b),
   V3 (y3 g * z3 a - z3 g * y3 a) (- x3 g * z3 a + z3 g * x3 a) (x3 g * y3 a - y3 g * x3 a)).
Definition normalize_bwd (ve : R) (a g : vec3) : vec3 :=
  let n := norm3 a + ve in
  let o := div3 a n in
  V3 (x3 g * (1 - x3 o * x3 o) / n + y3 g * (- x3 o * y3 o) / n + z3 g * (- x3 o * z3 o) / n)
     (x3 g * (- x3 o * y3 o) / n + y3 g * (1 - y3 o * y3 o) / n + z3 g * (- y3 o * z3 o) / n)
     (x3 g * (- x3 o * z3 o) / n + y3 g * (- y3 o * z3 o) / n + z3 g * (1 - z3 o * z3 o) / n).
(* 752-823 *)
Definition ptri3_bwd (ke ve : R) (p v0 v1 v2 : vec3) (g min_area : R) : vec3 * vec3 * vec3 * vec3 :=
  let v2v0 := sub3 v2 v0 in
  let v1v0 := sub3 v1 v0 in
  let v0p := sub3 v0 p in
  let raw := cross3 v2v0 v1v0 in
  let normal := div3 raw (norm3 raw + ve) in
  let t := dot3 (sub3 v0 p) normal in
  let p0 := add3 p (scal3 t normal) in
  let diff := scal3 t normal in
  let zero := V3 0 0 0 in
  if inside3 ke p0 v0 v1 v2 min_area && Rltb ke (norm3 raw) then
    let gp := scal3 (-2 * g * t) normal in
    let gnormal := scal3 (2 * g * t) (add3 v0p diff) in
    let graw := normalize_bwd ve raw gnormal in
    let '(gc2, gc1) := cross_bwd v2v0 v1v0 graw in
    (gp, sub3 (scal3 (g * 2 * t) normal) (add3 gc2 gc1), gc1, gc2)
  else
    let e01 := pline3 p v0 v1 in
    let e02 := pline3 p v0 v2 in
    let e12 := pline3 p v1 v2 in
    if Rleb e01 e02 && Rleb e01 e12 then
      let '(gp, ga, gb) := pline3_bwd p v0 v1 g in (gp, ga, gb, zero)
    else if Rleb e02 e01 && Rleb e02 e12 then
      let '(gp, ga, gb) := pline3_bwd p v0 v2 g in (gp, ga, zero, gb)
    else if Rleb e12 e01 && Rleb e12 e02 then
      let '(gp, ga, gb) := pline3_bwd p v1 v2 g in (gp, zero, ga, gb)
    else (zero, zero, zero, zero).

(* ---- rasterize_points/rasterization_utils.h:20-46 ---- *)
Definition ndc_range (S1 S2 : Z) : R := if (S2 <? S1)%Z then IZR S1 * 2 / IZR S2 else 2.
Definition pix_to_ndc (i S1 S2 : Z) : R :=
  let range := ndc_range S1 S2 in
  let offset := range / 2 in
  - offset + (range * IZR i + offset) / IZR S1.
