(* Model of /repo/pytorch3d/transforms/transform3d.py. Scalars are exact reals; dtype and
   device are not modelled. A float division by exactly 0 (which yields inf or nan) is made
   visible: None for a point with zero denominator, Fail for the reciprocal in Scale. *)
From Verif Require Import Base RBase Geom LinAlg.
Local Open Scope R_scope.

(* which class the object is; only Translate, Scale and Rotate override
   _get_matrix_inverse, and RotateAxisAngle differs from Rotate by its constructor *)
Inductive kind := KGeneric | KTranslate | KScale | KRotate | KAxisAngle.

(* self._matrix (a batch) and self._transforms: transform3d.py:147-182 *)
Inductive transform := TR (k : kind) (m : list mat4) (ts : list transform).
Definition t_kind t := match t with TR k _ _ => k end.
Definition t_matrix t := match t with TR _ m _ => m end.
Definition t_list t := match t with TR _ _ ts => ts end.

(* _broadcast_bmm: 854-879. The same pairing of batches is used for matrices, points and
   normals, so it is written once for an arbitrary product f. *)
Definition broadcast {A B C} (f : A -> B -> C) (a : list A) (b : list B) : result (list C) :=
  if (length a =? length b)%nat then Ok (map (fun p => f (fst p) (snd p)) (combine a b))
  else match a, b with
       | [x], _ => Ok (map (fun y => f x y) b)
       | _, [y] => Ok (map (fun x => f x y) a)
       | _, _ => Fail EValue
       end.

(* get_matrix: 223-249 *)
Fixpoint get_matrix (t : transform) : result (list mat4) :=
  match t with
  | TR _ m ts =>
      (fix go (acc : list mat4) (l : list transform) : result (list mat4) :=
         match l with
         | [] => Ok acc
         | o :: l' =>
             mo <- get_matrix o ;;
             acc' <- broadcast mul4 acc mo ;;
             go acc' l'
         end) m ts
  end.

(* Transform3d(matrix=...): 147-182; a single (4,4) matrix becomes a batch of one *)
Definition mk_transform (m : list mat4) : transform := TR KGeneric m [].
Definition mk_identity : transform := TR KGeneric [id4] [].

(* compose: 203-221; the result is always a plain Transform3d *)
Definition compose (t : transform) (others : list transform) : transform :=
  TR KGeneric (t_matrix t) (t_list t ++ others).

(* ---- constructors ---- *)
(* an argument of Translate / Scale: python or torch scalar, 1D tensor, (N,3) tensor, None *)
Inductive coord := CNone | CScalar (x : R) | CVec (v : list R) | CMat (v : list vec3).

(* _handle_coord: 749-765. torch.tensor(None) raises; a 2D tensor for y or z makes the
   final torch.stack disagree in shape. *)
Definition handle_coord (c : coord) : result (list R) :=
  match c with
  | CNone => Fail EType
  | CScalar x => Ok [x]
  | CVec v => Ok v
  | CMat _ => Fail ERuntime
  end.
(* c.expand(N) *)
Definition expand (n : nat) (c : list R) : list R :=
  match c with [x] => repeat x n | _ => c end.
Fixpoint zip3 (a b c : list R) : list vec3 :=
  match a, b, c with
  | x :: a', y :: b', z :: c' => V3 x y z :: zip3 a' b' c'
  | _, _, _ => []
  end.
(* _handle_input: 768-831 *)
Definition handle_input (x y z : coord) (allow_singleton : bool) : result (list vec3) :=
  match x, y, z with
  | CMat v, CNone, CNone => Ok v
  | CMat _, _, _ => Fail EValue
  | _, _, _ =>
      let single := match y, z with CNone, CNone => allow_singleton | _, _ => false end in
      let y' := if single then x else y in
      let z' := if single then x else z in
      xs <- handle_coord x ;;
      ys <- handle_coord y' ;;
      zs <- handle_coord z' ;;
      let n := Nat.max (length xs) (Nat.max (length ys) (length zs)) in
      let ok c := (length c =? 1)%nat || (length c =? n)%nat in
      if ok xs && ok ys && ok zs
      then Ok (zip3 (expand n xs) (expand n ys) (expand n zs))
      else Fail EValue
  end.

(* mat[:, 3, :3] = xyz: 553-556 *)
Definition translate_mat (p : vec3) : mat4 :=
  M4 1 0 0 0 0 1 0 0 0 0 1 0 (x3 p) (y3 p) (z3 p) 1.
(* 613-619 *)
Definition scale_mat (p : vec3) : mat4 :=
  M4 (x3 p) 0 0 0 0 (y3 p) 0 0 0 0 (z3 p) 0 0 0 0 1.
(* mat[:, :3, :3] = R: 680-684 *)
Definition rotate_mat (r : mat3) : mat4 :=
  M4 (m00 r) (m01 r) (m02 r) 0 (m10 r) (m11 r) (m12 r) 0
     (m20 r) (m21 r) (m22 r) 0 0 0 0 1.

(* Translate.__init__: 528-556 *)
Definition mk_translate (x y z : coord) : result transform :=
  v <- handle_input x y z false ;; Ok (TR KTranslate (map translate_mat v) []).
(* Scale.__init__: 585-619 *)
Definition mk_scale (x y z : coord) : result transform :=
  v <- handle_input x y z true ;; Ok (TR KScale (map scale_mat v) []).
(* Rotate.__init__: 652-684. Orthogonality is not checked unless an environment variable is
   set, and then only warned about: 675-678, 882-913. *)
Definition mk_rotate (rs : list mat3) : transform := TR KRotate (map rotate_mat rs) [].

Inductive axis := AX | AY | AZ.
(* rotation_conversions.py:165-193; column-vector convention *)
Definition axis_rot (a : axis) (t : R) : mat3 :=
  match a with
  | AX => M3 1 0 0 0 (cos t) (- sin t) 0 (sin t) (cos t)
  | AY => M3 (cos t) 0 (sin t) 0 1 0 (- sin t) 0 (cos t)
  | AZ => M3 (cos t) (- sin t) 0 (sin t) (cos t) 0 0 0 1
  end.
(* _handle_angle_input: 834-851; an angle tensor with more than one dimension is rejected *)
Definition handle_angle (c : coord) : result (list R) :=
  match c with CMat _ => Fail EValue | _ => handle_coord c end.
(* RotateAxisAngle.__init__: 710-746 *)
Definition mk_axis_angle (c : coord) (a : axis) (degrees : bool) : result transform :=
  ang <- handle_angle c ;;
  let rad x := if degrees then x / 180 * PI else x in
  Ok (TR KAxisAngle (map (fun x => rotate_mat (tr3 (axis_rot a (rad x)))) ang) []).

(* ---- inverse ---- *)
Definition kind_inverse (k : kind) (m : mat4) : result mat4 :=
  match k with
  | KGeneric => inv4 m                                       (* 294-298 *)
  | KTranslate =>                                            (* 558-565 *)
      Ok (M4 (n00 m) (n01 m) (n02 m) (n03 m) (n10 m) (n11 m) (n12 m) (n13 m)
             (n20 m) (n21 m) (n22 m) (n23 m) (- n30 m) (- n31 m) (- n32 m) (n33 m))
  | KScale =>                                                (* 621-628 *)
      if Reqb (n00 m) 0 || Reqb (n11 m) 0 || Reqb (n22 m) 0 || Reqb (n33 m) 0
      then Fail ERuntime
      else Ok (M4 (/ n00 m) 0 0 0 0 (/ n11 m) 0 0 0 0 (/ n22 m) 0 0 0 0 (/ n33 m))
  | KRotate | KAxisAngle => Ok (tr4 m)                       (* 686-690 *)
  end.
(* inverse(invert_composed=False): 332-345 *)
Fixpoint inverse_parts (t : transform) : result transform :=
  match t with
  | TR k m ts =>
      im <- rmap (kind_inverse k) m ;;
      match ts with
      | [] => Ok (TR KGeneric im [])
      | _ =>
          its <- (fix go (l : list transform) : result (list transform) :=
                    match l with
                    | [] => Ok []
                    | o :: l' => o' <- inverse_parts o ;; r <- go l' ;; Ok (o' :: r)
                    end) ts ;;
          Ok (TR KGeneric [id4] (rev its ++ [TR KGeneric im []]))
      end
  end.
(* inverse: 300-347 *)
Definition inverse (invert_composed : bool) (t : transform) : result transform :=
  if invert_composed
  then m <- get_matrix t ;; im <- rmap inv4 m ;; Ok (TR KGeneric im [])
  else inverse_parts t.

(* stack: 349-364 *)
Definition stack (t : transform) (others : list transform) : result transform :=
  ms <- rmap get_matrix (t :: others) ;; Ok (TR KGeneric (concat ms) []).

(* clone: 463-477; every object in the copy is a plain Transform3d *)
Fixpoint clone (t : transform) : transform :=
  match t with TR _ m ts => TR KGeneric m (map clone ts) end.

(* ---- indexing ---- *)
Inductive index := IxInt (i : Z) | IxList (l : list Z) | IxMask (b : list bool).
Definition index1 (n : nat) (i : Z) : result nat :=
  if ((i <? - Z.of_nat n) || (Z.of_nat n <=? i))%Z then Fail EIndex
  else Ok (Z.to_nat (if (i <? 0)%Z then i + Z.of_nat n else i)%Z).
(* tensor[index] along the batch dimension *)
Definition take_index {A} (l : list A) (ix : index) : result (list A) :=
  match ix with
  | IxInt i => j <- index1 (length l) i ;; x <- rget l j ;; Ok [x]
  | IxList is_ => rmap (fun i => j <- index1 (length l) i ;; rget l j) is_
  | IxMask b => if (length b =? length l)%nat
                then Ok (map snd (filter fst (combine b l)))
                else Fail EIndex
  end.
(* __getitem__: base 187-201, Translate 567-581, Scale 630-648, Rotate 692-706
   (inherited by RotateAxisAngle, whose constructor gets a 3-dimensional "angle") *)
Definition getitem (t : transform) (ix : index) : result transform :=
  m <- get_matrix t ;;
  mi <- take_index m ix ;;
  match t_kind t with
  | KGeneric => Ok (mk_transform mi)
  | KTranslate =>
      mk_translate (CMat (map (fun a => V3 (n30 a) (n31 a) (n32 a)) mi)) CNone CNone
  | KScale => mk_scale (CVec (map n00 mi)) (CVec (map n11 mi)) (CVec (map n22 mi))
  | KRotate => Ok (mk_rotate (map block3 mi))
  | KAxisAngle => mk_axis_angle (CMat (map (fun a => V3 (n00 a) (n01 a) (n02 a)) mi)) AX true
  end.

(* ---- points and normals ---- *)
(* a (P,3) tensor or an (N,P,3) tensor *)
Inductive points A := P2 (l : list A) | P3 (l : list (list A)).
Arguments P2 {A}. Arguments P3 {A}.
Definition as_batch {A} (p : points A) : list (list A) :=
  match p with P2 l => [l] | P3 l => l end.

(* 400-403 *)
Definition clamp_denom (eps : option R) (d : R) : R :=
  match eps with
  | None => d
  | Some e => let sign := if Rltb d 0 then -1 else if Rltb 0 d then 1 else 0 in
              (sign + (if Reqb d 0 then 1 else 0)) * Rmax (Rabs d) e
  end.
Definition to_h (p : vec3) : vec4 := V4 (x3 p) (y3 p) (z3 p) 1.
(* 404; None: a float division by zero *)
Definition from_h (eps : option R) (h : vec4) : option vec3 :=
  let d := clamp_denom eps (w4 h) in
  if Reqb d 0 then None else Some (V3 (x4 h / d) (y4 h / d) (z4 h / d)).
Definition reshape {A B} (p : points A) (out : list (list B)) : points B :=
  match p, out with
  | P2 _, [o] => P2 o
  | _, _ => P3 out
  end.
(* transform_points: 366-409 *)
Definition transform_points (eps : option R) (t : transform) (p : points vec3)
  : result (points (option vec3)) :=
  m <- get_matrix t ;;
  out <- broadcast (fun pts a => map (fun q => from_h eps (vmul4 (to_h q) a)) pts)
                   (as_batch p) m ;;
  Ok (reshape p out).

(* transform_normals: 411-441 *)
Definition transform_normals (t : transform) (p : points vec3) : result (points vec3) :=
  m <- get_matrix t ;;
  im <- rmap (fun a => inv3 (tr3 (block3 a))) m ;;
  out <- broadcast (fun ns a => map (fun q => vmul3 q a) ns) (as_batch p) im ;;
  Ok (reshape p out).
