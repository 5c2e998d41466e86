(* Model of loss/mesh_normal_consistency.py and csrc/mesh_normal_consistency/mesh_normal_consistency_cpu.cpp. Scalars are
   exact reals, autograd is not modelled. Where the code indexes a tensor with packed indices, a negative index (which a
   Meshes object never holds) is an error here. *)
From Verif Require Import Base Packing RBase Geom FaceAreas Meshes Laplace.
Local Open Scope R_scope.

(* ---- mesh_normal_consistency_cpu.cpp:13-36 ---- *)
Fixpoint find_from (start : nat) (edge_num : list nat) : list (nat * nat) :=
  match edge_num with
  | [] => []
  | e :: rest => flat_map (fun j => map (fun i => (start + i, start + j)%nat) (seq 0 j)) (seq 0 e) ++ find_from (start + e) rest
  end.
Definition find_verts (edge_num : list nat) : list (nat * nat) := find_from 0 edge_num.

(* torch.bincount(minlength=n) *)
Definition bincount (n : nat) (l : list Z) : result (list nat) :=
  if existsb (fun z => (z <? 0)%Z) l then Fail ERuntime
  else Ok (map (fun i => length (filter (fun z => (z =? Z.of_nat i)%Z) l)) (seq 0 (Nat.max n (max_nat (map (fun z => S (Z.to_nat z)) l))))).
(* torch.cosine_similarity with its default eps = 1e-8 *)
Definition cosine (a b : vec3) : R := dot3 a b / (Rmax (norm3 a) kEps * Rmax (norm3 b) kEps).
Definition neg3 (a : vec3) : vec3 := scal3 (-1) a.
Definition zget {A} (l : list A) (i : Z) : result A := if (i <? 0)%Z then Fail EIndex else match nth_error l (Z.to_nat i) with Some x => Ok x | None => Fail EIndex end.

Section Argsort.
Variable argsort : list Z -> list nat.

(* mesh_normal_consistency.py:110-122: the un-normalised normal of one (edge, face) row *)
Definition row_normal (vs : list vec3) (es : list (Z * Z)) (r : Z * face) : result vec3 :=
  e <- zget es (fst r) ;;
  v0 <- zget vs (fst e) ;; v1 <- zget vs (snd e) ;;
  let '(a, b, c) := snd r in
  p <- zget vs a ;; q <- zget vs b ;; s <- zget vs c ;;
  let d := sub3 v1 v0 in
  Ok (add3 (add3 (cross3 d (sub3 p v0)) (cross3 d (sub3 q v0))) (cross3 d (sub3 s v0))).

(* mesh_normal_consistency.py:13-137 *)
Definition mesh_normal_consistency (m : meshes) : result (R * meshes) :=
  if isempty m then Ok (0, m)
  else
    r <- verts_packed m ;; let '(vs, m) := r in
    r <- faces_packed m ;; let '(fs, m) := r in
    r <- edges_packed argsort m ;; let '(es, m) := r in
    r <- verts_packed_to_mesh_idx m ;; let '(owner, m) := r in
    r <- faces_packed_to_edges_packed argsort m ;; let '(f2e, m) := r in
    match f2e with
    | None => Fail EAttr
    | Some f2e =>
        (* 81-85 *)
        let edge_idx := flat_map (fun t => let '(i, j, k) := t in [i; j; k]) f2e in
        let vert_idx := flat_map (fun f => [f; f; f]) fs in
        let order := argsort edge_idx in
        (* 86-87 *)
        edge_idx <- rmap (fun i => rget edge_idx i) order ;;
        vert_idx <- rmap (fun i => rget vert_idx i) order ;;
        (* 101-106 *)
        edge_num <- bincount (length es) edge_idx ;;
        let pairs := find_verts edge_num in
        match pairs with
        | [] => Ok (0, m)
        | _ =>
            ns <- rmap (row_normal vs es) (combine edge_idx vert_idx) ;;
            (* 123-125 *)
            loss <- rmap (fun p => n0 <- rget ns (fst p) ;; n1 <- rget ns (snd p) ;; Ok (1 - cosine n0 (neg3 n1))) pairs ;;
            (* 127-131 *)
            idx <- rmap (fun f => zget owner (fst (fst f))) vert_idx ;;
            idx <- rmap (fun p => rget idx (fst p)) pairs ;;
            num <- bincount (mN m) idx ;;
            w <- gathered num idx ;;
            (* 133-134 *)
            Ok (weighted_sum loss w / INR (mN m), m)
        end
    end.
End Argsort.
