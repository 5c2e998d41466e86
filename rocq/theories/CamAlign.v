(* Model of ops/cameras_alignment.py. Floats are exact reals; torch.svd is the parameter [svd]. *)
From Coq Require Import String.
From Verif Require Import Base RBase Geom LinAlg Transform Camera Alignment.
Local Open Scope R_scope.

(* x.mean(0) of a batch of matrices, of vectors *)
Definition mean_mat (l : list mat3) : mat3 := mscal3 (/ INR (length l)) (fold_right madd3 zero3 l).
Definition mean_vec (l : list vec3) : vec3 := div3 (vsum3 l) (INR (length l)).
(* an operation along two batches of the same size *)
Definition along {A B C} (f : A -> B -> C) (a : list A) (b : list B) : list C :=
  map (fun p => f (fst p) (snd p)) (combine a b).
Definition neg3 (v : vec3) : vec3 := V3 (- x3 v) (- y3 v) (- z3 v).

Section Align.
  Variable svd : mat3 -> mat3 * vec3 * mat3.

  (* _align_camera_centers: 140-164. The three results (align_t_R, align_t_T, align_t_s) as one record. *)
  Definition align_centers (src tgt : cameras) (estimate_scale : bool) (eps : R) : result similarity :=
    a <- snd (camera_center no_kw src) ;;                                            (* 149 *)
    b <- snd (camera_center no_kw tgt) ;;                                            (* 150 *)
    ts <- corresponding_points_alignment svd (of_tensor (length a) [a]) (of_tensor (length b) [b])
            WNone estimate_scale false eps ;;                                        (* 151-157 *)
    t <- rget ts 0 ;;
    let r := tr3 (rot t) in                                                          (* 159 *)
    Ok (Sim r (neg3 (vmul3 (shift t) r)) (scale t)).                                 (* 160-163 *)

  (* _align_camera_extrinsics: 167-235. torch.svd raises on the mean (nan) of no matrices. *)
  Definition align_extrinsics (src tgt : cameras) (estimate_scale : bool) (eps : R) : result similarity :=
    match cs_R src with
    | [] => Fail ERuntime
    | _ =>
        let '(u, _, v) := svd (mean_mat (along (fun r r' => mul3 r (tr3 r')) (cs_R src) (cs_R tgt))) in  (* 185-186 *)
        let r := mul3 v (tr3 u) in                                                   (* 187 *)
        let a := along mulv3 (cs_R src) (cs_T src) in                                (* 215 *)
        let b := along mulv3 (cs_R src) (cs_T tgt) in                                (* 218 *)
        let amu := mean_vec a in
        let bmu := mean_vec b in
        let s := if (estimate_scale && (1 <? length a)%nat)%bool                     (* 221-230 *)
                 then let ac := map (fun p => sub3 p amu) a in
                      let bc := map (fun p => sub3 p bmu) b in
                      let n := 3 * INR (length a) in
                      (rsum (along dot3 ac bc) / n) / Rmax eps (rsum (map (fun p => dot3 p p) ac) / n)
                 else 1 in
        Ok (Sim r (sub3 bmu (scal3 s amu)) s)                                        (* 232 *)
    end.

  (* corresponding_cameras_alignment: 19-137. The clone keeps everything but R and T. *)
  Definition cameras_alignment (src tgt : cameras) (estimate_scale : bool) (mode : string) (eps : R) : result cameras :=
    if negb (length (cs_R src) =? length (cs_R tgt))%nat then Fail EValue            (* 104-107 *)
    else
      t <- (if String.eqb mode "centers" then align_centers src tgt estimate_scale eps        (* 109-114 *)
            else if String.eqb mode "extrinsics" then align_extrinsics src tgt estimate_scale eps
            else Fail EValue) ;;
      Ok (Cams (cs_cls src) (cs_int src) (cs_K src)
               (map (mul3 (rot t)) (cs_R src))                                       (* 123 *)
               (along (fun r x => add3 (vmul3 (shift t) r) (scal3 (scale t) x)) (cs_R src) (cs_T src))  (* 124-135 *)
               (cs_ndc src) (cs_size src)).
End Align.
