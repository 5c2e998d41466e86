(* Model of ops/marching_cubes.py (the naive version and the wrapper of the C++ version, without CUDA),
   csrc/marching_cubes/marching_cubes_cpu.cpp and csrc/marching_cubes/marching_cubes_utils.h. Field values and vertex
   positions are exact reals. The C++ code computes the ids of grid points with float arithmetic, which is modelled as
   rounding integers to 24 significant bits; fused multiply-add is not. *)
From Verif Require Import Base RBase Geom LinAlg Transform MarchingTables.
From Verif Require Text.
Local Open Scope R_scope.

Definition volume := list (list (list R)).
Definition point := (nat * nat * nat)%type.
(* volume[v[2]][v[1]][v[0]] *)
Definition vol_get (vol : volume) (p : point) : result R := let '(x, y, z) := p in s <- rget vol z ;; r <- rget s y ;; rget r x.
(* marching_cubes.py:60-62, marching_cubes_utils.h:76-79 *)
Definition corner (c : point) (v : nat) : point :=
  let '(x, y, z) := c in (x + Nat.land v 1, y + Nat.land (Nat.shiftr v 1) 1, z + Nat.land (Nat.shiftr v 2) 1)%nat.
Definition pos_of (p : point) : vec3 := let '(x, y, z) := p in V3 (INR x) (INR y) (INR z).
(* marching_cubes.py:65-70, marching_cubes_utils.h:80-87 *)
Definition cube_index (index : list nat) (vol : volume) (iso : R) (c : point) : result nat :=
  rfold (fun acc i => v <- rget index i ;; val <- vol_get vol (corner c v) ;; Ok (if Rltb val iso then Nat.lor acc (Nat.shiftl 1 i) else acc)) (seq 0 8) 0%nat.
(* the end points of an edge of a cube *)
Definition ends (etv : list (list nat)) (c : point) (e : nat) : result (point * point) :=
  r <- rget etv e ;; v1 <- rget r 0 ;; v2 <- rget r 1 ;; Ok (corner c v1, corner c v2).
Definition EPS : R := / 100000.

(* marching_cubes.py:89-132 *)
Definition vert_interp (vol : volume) (iso : R) (pp : point * point) : result vec3 :=
  val1 <- vol_get vol (fst pp) ;; val2 <- vol_get vol (snd pp) ;;
  let p1 := pos_of (fst pp) in let p2 := pos_of (snd pp) in
  if Rltb (Rabs (iso - val1)) EPS then Ok p1
  else if Rltb (Rabs (iso - val2)) EPS then Ok p2
  else if Rltb (Rabs (val1 - val2)) EPS then Ok p1
  else let mu := (iso - val1) / (val2 - val1) in
       Ok (V3 (x3 p1 + mu * (x3 p2 - x3 p1)) (y3 p1 + mu * (y3 p2 - y3 p1)) (z3 p1 + mu * (z3 p2 - z3 p1))).
(* marching_cubes_utils.h:101-123 *)
Definition VertexInterp (vol : volume) (iso : R) (pp : point * point) : result vec3 :=
  val1 <- vol_get vol (fst pp) ;; val2 <- vol_get vol (snd pp) ;;
  let p1 := pos_of (fst pp) in let p2 := pos_of (snd pp) in
  if Rltb (Rabs (iso - val1)) EPS then Ok p1
  else if Rltb (Rabs (iso - val2)) EPS then Ok p2
  else if Rltb (Rabs (val1 - val2)) EPS then Ok p1
  else let ratio := (iso - val1) / (val2 - val1) in Ok (add3 (scal3 (1 - ratio) p1) (scal3 ratio p2)).

(* marching_cubes.py:72-87: exact integers *)
Definition point_id (W H : nat) (p : point) : nat := let '(x, y, z) := p in (x + y * W + z * W * H)%nat.
(* marching_cubes_utils.h:138-144: p[v].x + p[v].y * W + p[v].z * W * H on floats, converted to int *)
Definition f32 (z : Z) : Z := Text.fround 24 z.
Definition point_id_f32 (W H : Z) (p : point) : Z :=
  let '(x, y, z) := p in
  f32 (f32 (f32 (Z.of_nat x) + f32 (f32 (Z.of_nat y) * W)) + f32 (f32 (f32 (Z.of_nat z) * W) * H))%Z.
(* int arithmetic; overflow wraps here (it is undefined in C++) *)
Definition i32 (z : Z) : Z := ((z + 2 ^ 31) mod 2 ^ 32 - 2 ^ 31)%Z.
Definition HashVpair (W H D : Z) (pp : point * point) : Z :=
  (i32 (point_id_f32 W H (fst pp)) * i32 (W + W * H + W * H * D) + i32 (point_id_f32 W H (snd pp)))%Z.

(* a triangle corner test: marching_cubes.py:203-205 compares lists, marching_cubes_utils.h:39-43 with a tolerance *)
Definition differ_py (p q : vec3) : bool := negb (Reqb (x3 p) (x3 q) && Reqb (y3 p) (y3 q) && Reqb (z3 p) (z3 q)).
Definition differ_cpp (p q : vec3) : bool :=
  Rleb EPS (Rabs (x3 p - x3 q)) || Rleb EPS (Rabs (y3 p - y3 q)) || Rleb EPS (Rabs (z3 p - z3 q)).

Section Build.
Context {K : Type} (eqb : K -> K -> bool) (differ : vec3 -> vec3 -> bool).
Fixpoint lookup (k : K) (l : list (K * nat)) : option nat :=
  match l with [] => None | (k', i) :: l => if eqb k k' then Some i else lookup k l end.
(* verts, faces (three pushes make one row) and uniq_edge_id. edge_id_to_v is only read where it was just written. *)
Record mesh_state := MS { ms_verts : list vec3; ms_faces : list (nat * nat * nat); ms_uniq : list (K * nat) }.
Definition add_vertex (s : mesh_state) (kp : K * vec3) : mesh_state * nat :=
  match lookup (fst kp) (ms_uniq s) with
  | Some i => (s, i)
  | None => let i := length (ms_verts s) in (MS (ms_verts s ++ [snd kp]) (ms_faces s) (ms_uniq s ++ [(fst kp, i)]), i)
  end.
(* marching_cubes.py:197-214, marching_cubes_cpu.cpp:65-84: tri and ps are cleared only when a triangle is stored *)
Definition add_corner (st : list (K * vec3) * mesh_state) (jkp : nat * (K * vec3)) : result (list (K * vec3) * mesh_state) :=
  let tri := fst st ++ [snd jkp] in
  if ((fst jkp + 1) mod 3 =? 0)%nat then
    match tri with
    | a :: b :: c :: _ =>
        if differ (snd a) (snd b) && differ (snd b) (snd c) && differ (snd c) (snd a) then
          let '(s, i) := add_vertex (snd st) a in let '(s, j) := add_vertex s b in let '(s, k) := add_vertex s c in
          Ok ([], MS (ms_verts s) (ms_faces s ++ [(i, j, k)]) (ms_uniq s))
        else Ok (tri, snd st)
    | _ => Fail EIndex
    end
  else Ok (tri, snd st).
(* one cube *)
Definition add_cube (s : mesh_state) (row : list (K * vec3)) : result mesh_state :=
  r <- rfold add_corner (combine (seq 0 (length row)) row) ([], s) ;; Ok (snd r).
End Build.
Arguments MS {K}. Arguments ms_verts {K}. Arguments ms_faces {K}. Arguments ms_uniq {K}.

(* the loops over z, y and x: marching_cubes.py:173-175, marching_cubes_cpu.cpp:46-48 *)
Definition cubes (D H W : nat) : list point :=
  flat_map (fun z => flat_map (fun y => map (fun x => (x, y, z)) (seq 0 (W - 1))) (seq 0 (H - 1))) (seq 0 (D - 1)).

(* vpair_to_edge.setdefault((v1_id, v2_id), len(vpair_to_edge)): marching_cubes.py:193-196 *)
Definition pair_eqb (a b : nat * nat) : bool := ((fst a =? fst b) && (snd a =? snd b))%nat.
Definition setdefault (d : list ((nat * nat) * nat)) (k : nat * nat) : list ((nat * nat) * nat) * nat :=
  match lookup pair_eqb k d with Some i => (d, i) | None => (d ++ [(k, length d)], length d) end.
(* marching_cubes.py:176-214 for one cube *)
Definition naive_cube (vol : volume) (H W : nat) (iso : R) (st : list ((nat * nat) * nat) * @mesh_state nat) (c : point)
    : result (list ((nat * nat) * nat) * @mesh_state nat) :=
  ci <- cube_index INDEX vol iso c ;;
  row <- rget FACE_TABLE ci ;;
  r <- rfold (fun dl e =>
      pp <- ends EDGE_TO_VERTICES c e ;;
      p <- vert_interp vol iso pp ;;
      let '(d, i) := setdefault (fst dl) (point_id W H (fst pp), point_id W H (snd pp)) in
      Ok (d, snd dl ++ [(i, p)])) row (fst st, []) ;;
  s <- add_cube Nat.eqb differ_py (snd st) (snd r) ;;
  Ok (fst r, s).
(* marching_cubes.py:165-214 for one volume, in grid coordinates *)
Definition naive (vol : volume) (D H W : nat) (iso : R) : result (list vec3 * list (nat * nat * nat)) :=
  r <- rfold (naive_cube vol H W iso) (cubes D H W) ([], MS [] [] []) ;;
  Ok (ms_verts (snd r), ms_faces (snd r)).

(* the entries of a row of _FACE_TABLE before the first 255; without a 255 the C++ loop would leave the row *)
Fixpoint row_upto_X (r : list nat) : result (list nat) :=
  match r with [] => Fail EOutOfBounds | e :: r => if (e =? X)%nat then Ok [] else l <- row_upto_X r ;; Ok (e :: l) end.
(* marching_cubes_cpu.cpp:49-85 for one cube *)
Definition cpp_cube (vol : volume) (D H W : nat) (iso : R) (s : @mesh_state Z) (c : point) : result (@mesh_state Z) :=
  ci <- cube_index cpp_INDEX_TABLE vol iso c ;;
  r <- rget cpp_FACE_TABLE ci ;; row <- row_upto_X r ;;
  kps <- rmap (fun e =>
      pp <- ends cpp_EDGE_TO_VERTICES c e ;;
      p <- VertexInterp vol iso pp ;;
      Ok (HashVpair (Z.of_nat W) (Z.of_nat H) (Z.of_nat D) pp, p)) row ;;
  add_cube Z.eqb differ_cpp s kps.
(* marching_cubes_cpu.cpp:29-111 *)
Definition MarchingCubesCpu (vol : volume) (D H W : nat) (iso : R) : result (list vec3 * list (nat * nat * nat)) :=
  s <- rfold (cpp_cube vol D H W iso) (cubes D H W) (MS [] [] []) ;;
  Ok (ms_verts s, ms_faces s).

(* marching_cubes.py:166, 283: the default isolevel; max() of an empty tensor raises *)
Definition threshold (iso : option R) (vol : volume) : result R :=
  match iso with
  | Some t => Ok t
  | None => match concat (concat vol) with
            | [] => Fail ERuntime
            | v :: l => Ok ((fold_left Rmax l v + fold_left Rmin l v) / 2)
            end
  end.
(* marching_cubes.py:220-225, 288-293: Translate(1, 1, 1).scale((W, H, D) - 1) * 0.5).inverse().transform_points *)
Definition to_local (D H W : nat) (verts : list vec3) : result (list vec3) :=
  t <- mk_translate (CScalar 1) (CScalar 1) (CScalar 1) ;;
  s <- mk_scale (CMat [V3 ((INR W - 1) * / 2) ((INR H - 1) * / 2) ((INR D - 1) * / 2)]) CNone CNone ;;
  i <- inverse false (compose t [s]) ;;
  r <- transform_points None i (P3 [verts]) ;;
  match as_batch r with
  | ps :: _ => rmap (fun o : option vec3 => match o with Some v => Ok v | None => Fail ERuntime end) ps
  | [] => Fail EIndex
  end.
(* marching_cubes.py:216-230, 285-305: a volume without faces gives two empty lists *)
Definition finish (local : bool) (D H W : nat) (vf : list vec3 * list (nat * nat * nat)) : result (list vec3 * list (nat * nat * nat)) :=
  match fst vf, snd vf with
  | _ :: _, _ :: _ => if local then vs <- to_local D H W (fst vf) ;; Ok (vs, snd vf) else Ok vf
  | _, _ => Ok ([], [])
  end.
(* marching_cubes.py:135-231 and 255-306: vols holds the volumes, D, H and W are vol_batch.shape[1:] *)
Definition marching_cubes_naive (vols : list volume) (D H W : nat) (iso : option R) (local : bool) : result (list (list vec3 * list (nat * nat * nat))) :=
  rmap (fun vol => t <- threshold iso vol ;; r <- naive vol D H W t ;; finish local D H W r) vols.
Definition marching_cubes (vols : list volume) (D H W : nat) (iso : option R) (local : bool) : result (list (list vec3 * list (nat * nat * nat))) :=
  rmap (fun vol => t <- threshold iso vol ;; r <- MarchingCubesCpu vol D H W t ;; finish local D H W r) vols.
