(* Model of /repo/pytorch3d/renderer/mesh/clip.py over the reals. A face is the triple of its
   vertices; tensors indexed by faces are lists. Devices, dtypes and gradients are left out. *)
From Verif Require Import Base RBase Geom LinAlg Symeig.
Local Open Scope R_scope.

Definition face : Type := vec3 * vec3 * vec3.
Definition vert (f : face) (k : idx3) : vec3 :=
  let '(a, b, c) := f in match k with I0 => a | I1 => b | I2 => c end.
Definition all3 : list idx3 := [I0; I1; I2].
(* torch.remainder(i + 1, 3), torch.remainder(i + 2, 3) *)
Definition next (i : idx3) : idx3 := match i with I0 => I1 | I1 => I2 | I2 => I0 end.
Definition prev (i : idx3) : idx3 := match i with I0 => I2 | I1 => I0 | I2 => I1 end.

(* 36-96 ClippedFaces; num_faces_per_mesh and the two index tensors that may hold -1 are
   integers *)
Record clipped := Clipped {
  c_verts : list face;
  c_first : list nat;
  c_num : list Z;
  c_source : option (list nat);            (* faces_clipped_to_unclipped_idx *)
  c_conv : option (list mat3);             (* barycentric_conversion *)
  c_conv_idx : option (list Z);            (* faces_clipped_to_conversion_idx *)
  c_neighbor : option (list Z) }.          (* clipped_faces_neighbor_idx *)

(* 99-153 ClipFrustum *)
Record frustum := Frustum {
  f_left : option R; f_right : option R; f_top : option R; f_bottom : option R;
  f_znear : option R; f_zfar : option R;
  f_perspective : bool; f_cull : bool; f_zclip : option R }.

(* 186-195 one clipping plane and one face: [face_verts[:, axis]] is the vertex number [axis] with its
   three coordinates; [less] is op == "<" *)
Definition beyond (less : bool) (v : R) (axis : idx3) (f : face) : bool :=
  let out := fun t => if less then Rltb t v else Rltb v t in
  (count_if out (map (at3 (vert f axis)) all3) =? 3)%nat.
(* 174-197 _get_culled_faces, one face *)
Definition culled (fr : frustum) (f : face) : bool :=
  let plane (o : option R) axis less :=
    match o with Some v => if f_cull fr then beyond less v axis f else false | None => false end in
  plane (f_left fr) I0 true || plane (f_right fr) I0 false || plane (f_top fr) I1 true ||
  plane (f_bottom fr) I1 false || plane (f_znear fr) I2 true || plane (f_zfar fr) I2 false.

(* a vector of zeros but for one entry *)
Definition axis3 (i : idx3) : vec3 :=
  match i with I0 => V3 1 0 0 | I1 => V3 0 1 0 | I2 => V3 0 0 1 end.
(* 272-284, 294-302: the weight of q and the intersection of the edge from p to q with the plane *)
Definition cut_weight (p q : vec3) (c : R) : R := (z3 p - c) / (z3 p - z3 q).
Definition cut_point (p q : vec3) (c : R) (perspective : bool) : vec3 :=
  let w := cut_weight p q c in
  let r := add3 (scal3 (1 - w) p) (scal3 w q) in
  if perspective
  then V3 ((x3 p * z3 p * (1 - w) + x3 q * z3 q * w) / c)
          ((y3 p * z3 p * (1 - w) + y3 q * z3 q * w) / c) (z3 r)
  else r.
(* 200-318 _find_verts_intersecting_clipping_plane, one face: the five points and their barycentric
   coordinates *)
Definition find_verts (f : face) (i1 : idx3) (c : R) (perspective : bool) : list vec3 * list vec3 :=
  let i2 := next i1 in let i3 := prev i1 in
  let p1 := vert f i1 in let p2 := vert f i2 in let p3 := vert f i3 in
  let w2 := cut_weight p1 p2 c in let w3 := cut_weight p1 p3 c in
  ([p1; p2; p3; cut_point p1 p2 c perspective; cut_point p1 p3 c perspective],
   [axis3 i1; axis3 i2; axis3 i3;
    add3 (scal3 (1 - w2) (axis3 i1)) (scal3 w2 (axis3 i2));
    add3 (scal3 (1 - w3) (axis3 i1)) (scal3 w3 (axis3 i3))]).
(* torch.stack((a, b, c), 2): the vectors are the columns *)
Definition stack2 (a b c : vec3) : mat3 :=
  M3 (x3 a) (x3 b) (x3 c) (y3 a) (y3 b) (y3 c) (z3 a) (z3 b) (z3 c).

(* mask.nonzero(as_tuple=True)[0] *)
Definition nonzero (l : list bool) : list nat := filter (fun i => nth i l false) (seq 0 (length l)).
(* t[idx] = vals *)
Definition put {A} (ps : list (nat * A)) (l : list A) : result (list A) :=
  rfold (fun l p => upd l (fst p) (snd p)) ps l.
(* t[idx] *)
Definition take {A} (l : list A) (idx : list nat) : result (list A) :=
  rmap (fun i => match nth_error l i with Some a => Ok a | None => Fail EIndex end) idx.
Definition b2z (b : bool) : Z := if b then 1%Z else 0%Z.
Definition zero_face : face := (V3 0 0 0, V3 0 0 0, V3 0 0 0).
Definition nn (l : list Z) : list nat := map Z.to_nat l.
(* exclusive cumulative sum: l.cumsum(0) - l *)
Fixpoint excl (acc : Z) (l : list Z) : list Z :=
  match l with [] => [] | a :: l' => acc :: excl (acc + a)%Z l' end.

(* 375 faces_clipped_verts, one face; 378-380 *)
Definition behind (zclip : option R) (f : face) (k : idx3) : bool :=
  match zclip with Some c => Rltb (z3 (vert f k)) c | None => false end.
Definition num_behind (zclip : option R) (f : face) : nat := count_if (behind zclip f) all3.

(* 491-511: the faces of case 3, 540-563: the faces of case 4. [idx] are their indices,
   torch.where(mask)[1] lists the marked vertices of all of them in order. *)
Definition split_faces (fr : frustum) (c : R) (sel : face -> idx3 -> bool) (fs : list face)
  : list (list vec3 * list vec3) :=
  let p1_face_ind := flat_map (fun f => filter (sel f) all3) fs in
  map (fun fi => find_verts (fst fi) (snd fi) c (f_perspective fr)) (combine fs p1_face_ind).
Definition pt (p : list vec3 * list vec3) (k : nat) : result vec3 := rget (fst p) k.
Definition bc (p : list vec3 * list vec3) (k : nat) : result vec3 := rget (snd p) k.
(* torch.stack of the k-th, l-th and m-th points *)
Definition tri_of (k l m : nat) (p : list vec3 * list vec3) : result face :=
  a <- pt p k ;; b <- pt p l ;; c <- pt p m ;; Ok (a, b, c).
Definition mat_of (k l m : nat) (p : list vec3 * list vec3) : result mat3 :=
  a <- bc p k ;; b <- bc p l ;; c <- bc p m ;; Ok (stack2 a b c).

(* 324-615 clip_faces *)
Definition clip_faces (faces : list face) (first num : list nat) (fr : frustum) : result clipped :=
  let F := length faces in
  let cul := map (culled fr) faces in                                     (* 366 *)
  let nc := map (num_behind (f_zclip fr)) faces in
  if ((sum_nat nc =? 0) && (count_if (fun b => b) cul =? 0))%nat%bool     (* 384-389 *)
  then Ok (Clipped faces first (map Z.of_nat num) None None None None)
  else
    let case1 := map (fun f => (num_behind (f_zclip fr) f =? 0)%nat && negb (culled fr f)) faces in
    let case2 := map (fun f => (num_behind (f_zclip fr) f =? 3)%nat || culled fr f) faces in
    let case3 := map (fun f => (num_behind (f_zclip fr) f =? 2)%nat && negb (culled fr f)) faces in
    let case4 := map (fun f => (num_behind (f_zclip fr) f =? 1)%nat && negb (culled fr f)) faces in
    let ix1 := nonzero case1 in let ix3 := nonzero case3 in let ix4 := nonzero case4 in
    (* 423-430 *)
    let faces_delta := map (fun p => b2z (fst p) - b2z (snd p))%Z (combine case4 case2) in
    let delta_cum := excl 0 faces_delta in
    let to_clipped := nn (excl 0 (map (fun p => 1 + b2z (fst p) - b2z (snd p))%Z (combine case4 case2))) in
    (* 436-444; the last element of an empty tensor raises *)
    last_cum <- rget delta_cum (F - 1) ;; last_delta <- rget faces_delta (F - 1) ;;
    let F' := Z.to_nat (Z.of_nat F + last_cum + last_delta) in
    let verts0 := repeat zero_face F' in
    let source0 := repeat 0%nat F' in
    (* 448-453 *)
    first' <- take to_clipped first ;;
    let next_first := tl first' ++ [F'] in
    let num' := map (fun p => (Z.of_nat (fst p) - Z.of_nat (snd p))%Z) (combine next_first first') in
    (* 459-461 *)
    to1 <- take to_clipped ix1 ;;
    f1 <- take faces ix1 ;;
    verts1 <- put (combine to1 f1) verts0 ;;
    source1 <- put (combine to1 ix1) source0 ;;
    if (length ix3 + length ix4 =? 0)%nat                              (* 465-471 *)
    then Ok (Clipped verts1 first' num' (Some source1) None None None)
    else match f_zclip fr with
    | None => Fail ERuntime            (* faces_clipped_verts is unbound: unreachable *)
    | Some c =>
      (* 491-514 *)
      f3 <- take faces ix3 ;;
      let ps3 := split_faces fr c (fun f k => negb (behind (f_zclip fr) f k)) f3 in
      to3 <- take to_clipped ix3 ;;
      tri3 <- rmap (tri_of 3 4 0) ps3 ;;
      m0 <- rmap (mat_of 3 4 0) ps3 ;;
      verts2 <- put (combine to3 tri3) verts1 ;;
      source2 <- put (combine to3 ix3) source1 ;;
      (* 540-565 *)
      f4 <- take faces ix4 ;;
      let ps4 := split_faces fr c (behind (f_zclip fr)) f4 in
      to4 <- take to_clipped ix4 ;;
      let to4' := map S to4 in
      t1 <- rmap (tri_of 3 1 4) ps4 ;;
      t2 <- rmap (tri_of 4 1 2) ps4 ;;
      verts3 <- put (combine to4 t1) verts2 ;;
      verts4 <- put (combine to4' t2) verts3 ;;
      m1 <- rmap (mat_of 3 1 4) ps4 ;;
      m2 <- rmap (mat_of 4 1 2) ps4 ;;
      source3 <- put (combine to4 ix4) source2 ;;
      source4 <- put (combine to4' ix4) source3 ;;
      (* 578-592 *)
      let conv := m0 ++ m1 ++ m2 in
      let to_convert := to3 ++ to4 ++ to4' in
      conv_idx <- put (combine to_convert (map Z.of_nat (seq 0 (length conv)))) (repeat (-1)%Z F') ;;
      (* 600-604 *)
      nb1 <- put (combine to4 (map (fun i => Z.of_nat (S i)) to4)) (repeat (-1)%Z F') ;;
      nb <- put (combine to4' (map Z.of_nat to4)) nb1 ;;
      Ok (Clipped verts4 first' num' (Some source4) (Some conv) (Some conv_idx) (Some nb))
    end.

(* t[i] for an index that may be -1, the last element *)
Definition zget {A} (l : list A) (i : Z) : result A :=
  if (i <? 0)%Z
  then if (- i <=? Z.of_nat (length l))%Z then rget l (length l - Z.to_nat (- i)) else Fail EIndex
  else rget l (Z.to_nat i).
(* 618-734 convert_clipped_rasterization_to_original_faces, one pixel and one of the nearest faces *)
Definition convert_one (cf : clipped) (pix : Z) (bary : vec3) : result (Z * vec3) :=
  match c_source cf with
  | None => Ok (pix, bary)                                                (* 657-661 *)
  | Some src =>
    if (length src =? 0)%nat then Ok (pix, bary) else
    s <- zget src pix ;;
    let pix' := if (pix =? -1)%Z then (-1)%Z else Z.of_nat s in           (* 668-672 *)
    match c_conv cf, c_conv_idx cf with
    | Some conv, Some conv_idx =>                                         (* 687-727 *)
        t <- zget conv_idx pix ;;
        let t' := if (pix =? -1)%Z then (-1)%Z else t in
        if (t' =? -1)%Z then Ok (pix', bary)
        else m <- zget conv t' ;; Ok (pix', mulv3 m bary)
    | _, _ => Ok (pix', bary)
    end
  end.
Definition convert (cf : clipped) (px : list (Z * vec3)) : result (list (Z * vec3)) :=
  rmap (fun p => convert_one cf (fst p) (snd p)) px.
