(* Model of ops/points_normals.py and of get_point_covariances in ops/utils.py over the reals.
   torch.linalg.eigh is the parameter [eigh]; [eps], [argmax] and [argmin] are the parameters of
   symeig3x3. *)
From Verif Require Import Base RBase Geom LinAlg TopK Knn Alignment Symeig.
Local Open Scope R_scope.

(* the three vectors are the columns of local_coord_frames[i, j] *)
Definition frame : Type := vec3 * vec3 * vec3.

Section Normals.
  Variable sort : list ext -> list nat.            (* torch.sort, as in Knn *)
  Variable eigh : mat3 -> vec3 * frame.
  Variable eps : R.
  Variables argmax argmin : vec3 -> idx3.

  (* points_normals.py:140-141, one batch element: the sum runs over the padding as well *)
  Definition centred (num : nat) (x : list vec3) : list vec3 :=
    let mean := div3 (vsum3 x) (INR num) in map (fun p => sub3 p mean) x.

  (* ops/utils.py:190-198 knn_points(..., return_nn=True).knn, one batch element *)
  Definition neighbours (K least num : nat) (x : list vec3) : result (list (list vec3)) :=
    out <- knn_points sort 2 K true least (map coords x) (map coords x) num num ;;
    rmap (fun r => knn_gather (V3 0 0 0) least K num x (snd r)) out.

  (* ops/utils.py:199-206, one neighbourhood. K = 0 gives NaN, on which torch.linalg.eigh raises. *)
  Definition covariance (K : nat) (nn : list vec3) : mat3 :=
    let mean := div3 (vsum3 nn) (INR K) in
    let diff := map (fun q => sub3 q mean) nn in
    mscal3 (/ INR K) (gram diff diff).

  (* points_normals.py:183-202 _disambiguate_vector_directions, one vector; proj > 0 is counted
     and the comparison n_pos < 0.5 K is doubled *)
  Definition disambiguate (K : nat) (p : vec3) (nn : list vec3) (v : vec3) : vec3 :=
    let df := map (fun q => sub3 q p) nn in
    let proj := map (fun d => dot3 v d) df in
    let n_pos := count_if (fun t => Rltb 0 t) proj in
    let flip := if (2 * n_pos <? K)%nat then 1 else 0 in
    scal3 (1 - 2 * flip) v.

  (* points_normals.py:147-180, one point *)
  Definition point_frame (K : nat) (disambiguate_directions use_symeig_workaround : bool)
      (p : vec3) (nn : list vec3) : vec3 * frame :=
    let cov := covariance K nn in
    let '(curvatures, (v1, v2, v3)) :=
      if use_symeig_workaround then symeig3x3 eps argmax argmin cov else eigh cov in
    if disambiguate_directions
    then let n := disambiguate K p nn v1 in
         let z := disambiguate K p nn v3 in
         (curvatures, (n, cross3 n z, z))
    else (curvatures, (v1, v2, v3)).

  (* points_normals.py:69-182 estimate_pointcloud_local_coord_frames; [dim] is the last dimension
     of the points, [vec3] when it is 3. The smallest of no lengths raises. *)
  Definition local_coord_frames (dim : nat) (x : points) (K : nat)
      (disambiguate_directions use_symeig_workaround : bool) : result (list (list (vec3 * frame))) :=
    if negb (dim =? 3)%nat then Fail EValue                               (* 127-130 *)
    else if existsb (fun n => (n <=? K)%nat) (nums x) then Fail EValue    (* 132-136 *)
    else
      least <- match nums x with
               | [] => Fail ERuntime
               | n :: l => Ok (fold_right Nat.min n l)
               end ;;
      match K with
      | O => Fail ERuntime
      | _ =>
        rmap (fun i => r <- rget (rows x) i ;; num <- rget (nums x) i ;;
                       let c := centred num r in
                       nn <- neighbours K least num c ;;
                       Ok (map (fun pq => point_frame K disambiguate_directions use_symeig_workaround (fst pq) (snd pq))
                               (combine c nn)))
             (seq 0 (length (rows x)))
      end.

  (* points_normals.py:21-66 estimate_pointcloud_normals *)
  Definition normals (dim : nat) (x : points) (K : nat)
      (disambiguate_directions use_symeig_workaround : bool) : result (list (list vec3)) :=
    out <- local_coord_frames dim x K disambiguate_directions use_symeig_workaround ;;
    Ok (map (map (fun f : vec3 * frame => fst (fst (snd f)))) out).
End Normals.
