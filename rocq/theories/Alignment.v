(* Model of ops/points_alignment.py (corresponding_points_alignment, iterative_closest_point)
   and of the helpers of ops/utils.py it calls, for 3-dimensional points. Floats are exact
   reals. torch.svd is the parameter [svd]. Warnings and the verbose messages are left out. *)
From Verif Require Import Base RBase Geom LinAlg TopK Knn.
Local Open Scope R_scope.

(* ops/utils.py:133-154 convert_pointclouds_to_tensor: what it returns for a tensor or a
   Pointclouds argument, a padded (b, width, 3) tensor and the number of points per cloud *)
Record points := PT { width : nat; rows : list (list vec3); nums : list nat }.
(* ... for a tensor: every row counts in full *)
Definition of_tensor (n : nat) (x : list (list vec3)) : points := PT n x (repeat n (length x)).

(* SimilarityTransform, one batch element (points_alignment.py:24-27) *)
Record similarity := Sim { rot : mat3; shift : vec3; scale : R }.

(* points_alignment.py:404-415 _apply_similarity_transform, one point *)
Definition apply_similarity (t : similarity) (x : vec3) : vec3 :=
  add3 (scal3 (scale t) (vmul3 x (rot t))) (shift t).

(* the argument weights of corresponding_points_alignment: None, a (b, n) tensor or a list *)
Inductive weights_arg := WNone | WTensor (n : nat) (w : list (list R)) | WList (w : list (list R)).

Definition vsum3 (l : list vec3) : vec3 := fold_right add3 (V3 0 0 0) l.
(* x * weight[..., None] *)
Definition weigh (w : list R) (x : list vec3) : list vec3 :=
  map (fun p => scal3 (fst p) (snd p)) (combine w x).
(* ops/utils.py:68-108 wmean for the points of one batch element (the two arguments always
   have matching shapes here). The mean of no points is NaN, on which torch.svd raises. *)
Definition wmean (eps : R) (w : option (list R)) (x : list vec3) : result vec3 :=
  match w with
  | None => match x with
            | [] => Fail ERuntime
            | _ => Ok (div3 (vsum3 x) (INR (length x)))
            end
  | Some w => Ok (div3 (vsum3 (weigh w x)) (Rmax eps (rsum w)))
  end.
(* ... and for one scalar per point, always weighted *)
Definition wmean1 (eps : R) (w : list R) (x : list R) : R :=
  rsum (map (fun p => fst p * snd p) (combine w x)) / Rmax eps (rsum w).

(* torch.bmm(Xc.transpose(2, 1), Yc) *)
Definition outer3 (a b : vec3) : mat3 :=
  M3 (x3 a * x3 b) (x3 a * y3 b) (x3 a * z3 b)
     (y3 a * x3 b) (y3 a * y3 b) (y3 a * z3 b)
     (z3 a * x3 b) (z3 a * y3 b) (z3 a * z3 b).
Definition zero3 : mat3 := M3 0 0 0 0 0 0 0 0 0.
Definition gram (a b : list vec3) : mat3 :=
  fold_right (fun p m => madd3 (outer3 (fst p) (snd p)) m) zero3 (combine a b).

Section Align.
  (* torch.svd: U, S, V with M = U diag(S) V^T *)
  Variable svd : mat3 -> mat3 * vec3 * mat3.

  (* points_alignment.py:328-401 for one batch element; [num] is num_points *)
  Definition align_one (estimate_scale allow_reflection : bool) (eps : R) (w : option (list R))
      (num : nat) (x y : list vec3) : result similarity :=
    xmu <- wmean eps w x ;;                                               (* 330 *)
    ymu <- wmean eps w y ;;                                               (* 332 *)
    let xc := map (fun p => sub3 p xmu) x in                              (* 336-338 *)
    let yc := map (fun p => sub3 p ymu) y in
    let xc := match w with None => xc | Some w => weigh w xc end in       (* 342-344 *)
    let yc := match w with None => yc | Some w => weigh w yc end in
    let total := match w with                                             (* 340, 345 *)
                 | None => INR (Nat.max num 1)
                 | Some w => Rmax eps (rsum w)
                 end in
    let cov := mscal3 (/ total) (gram xc yc) in                           (* 354-355 *)
    let '(u, s, v) := svd cov in                                          (* 358 *)
    let e := if allow_reflection then id3                                 (* 371-379 *)
             else M3 1 0 0 0 1 0 0 0 (det3 (mul3 u (tr3 v))) in
    let r := mul3 (mul3 u e) (tr3 v) in                                   (* 382 *)
    if estimate_scale then                                                (* 384-393 *)
      let trace_es := m00 e * x3 s + m11 e * y3 s + m22 e * z3 s in
      let xcov := rsum (map (fun p => dot3 p p) xc) / total in
      let c := trace_es / Rmax eps xcov in
      Ok (Sim r (sub3 ymu (scal3 c (vmul3 xmu r))) c)
    else Ok (Sim r (sub3 ymu (vmul3 xmu r)) 1).                           (* 394-399 *)

  (* 321-324: torch.arange(n) < num_points *)
  Definition mask (n num : nat) : list R := map (fun i => if (i <? num)%nat then 1 else 0) (seq 0 n).
  Definition times (a b : list R) : list R := map (fun p => fst p * snd p) (combine a b).
  (* strutil.list_to_padded on the weights: zeros up to the longest *)
  Definition pad_weights (n : nat) (w : list R) : list R := w ++ repeat 0 (n - length w).

  (* points_alignment.py:301-313: the shape checks, and the weights as a (b, n) tensor *)
  Definition check_weights (x : points) (w : weights_arg) : result (option (list (list R))) :=
    let fits n (l : list (list R)) := (Nat.eqb (length (rows x)) (length l) && Nat.eqb (width x) n)%bool in
    match w with
    | WNone => Ok None
    | WTensor n l => if fits n l then Ok (Some l) else Fail EValue
    | WList l =>
        if existsb (fun p => negb (Nat.eqb (fst p) (length (snd p)))) (combine (nums x) l) then Fail EValue
        else let n := max_nat (map (@length R) l) in
             let l := map (pad_weights n) l in
             if fits n l then Ok (Some l) else Fail EValue
    end.

  (* points_alignment.py:243-401 corresponding_points_alignment *)
  Definition corresponding_points_alignment (x y : points) (w : weights_arg)
      (estimate_scale allow_reflection : bool) (eps : R) : result (list similarity) :=
    if negb (Nat.eqb (length (rows x)) (length (rows y)) && Nat.eqb (width x) (width y))
       || existsb (fun p => negb (Nat.eqb (fst p) (snd p))) (combine (nums x) (nums y))
    then Fail EValue                                                      (* 296-300 *)
    else
      ws <- check_weights x w ;;
      let padded := existsb (fun k => (k <? width x)%nat) (nums x) in     (* 319 *)
      rmap (fun i =>
        xs <- rget (rows x) i ;; ys <- rget (rows y) i ;; k <- rget (nums x) i ;;
        wi <- match ws with None => Ok None | Some l => l <- rget l i ;; Ok (Some l) end ;;
        let wi := if padded                                               (* 326 *)
                  then Some (match wi with
                             | None => mask (width x) k
                             | Some l => times (mask (width x) k) l
                             end)
                  else wi in
        align_one estimate_scale allow_reflection eps wi k xs ys) (seq 0 (length (rows x))).

  (* torch.sort, as in ops/knn.py (not reached for K = 1) *)
  Variable sort : list ext -> list nat.

  Definition coords (p : vec3) : list R := [x3 p; y3 p; z3 p].
  (* points_alignment.py:173-182 knn_points(..., K=1, return_nn=True).knn[:, :, 0, :] for one
     batch element; [least] is lengths2.min() *)
  Definition nearest_points (least : nat) (x y : list vec3) (kx ky : nat) : result (list vec3) :=
    out <- knn_points sort 2 1 true least (map coords x) (map coords y) kx ky ;;
    rmap (fun r => g <- knn_gather (V3 0 0 0) least 1 ky y (snd r) ;; rget g 0) out.

  (* ICPSolution *)
  Record solution := Sol {
    converged : bool; rmse : option (list R); moved : list (list vec3);
    rts : list similarity; history : list (list similarity) }.

  (* points_alignment.py:203-218, one batch element: relative_rmse <= relative_rmse_thr. The
     quotient is NaN, and the test false, when both errors are 0; it is -infinity when only
     the previous one is 0. *)
  Definition small_change (thr : R) (prev : option R) (now : R) : bool :=
    match prev with
    | None => Rleb 1 thr
    | Some p => if Reqb p 0 then negb (Reqb now 0) else Rleb ((p - now) / p) thr
    end.

  Definition icp_eps : R := / 1000000000.            (* the default eps = 1e-9 *)

  (* points_alignment.py:173-201, one iteration: the neighbours, the new transforms, the moved
     points and their rmse *)
  Definition icp_step (estimate_scale allow_reflection : bool) (x y : points) (m : list (list R))
      (xt : list (list vec3)) : result (list (list vec3) * list similarity * list (list vec3) * list R) :=
    let b := length (rows x) in
    least <- match nums y with
             | [] => Fail ERuntime                   (* lengths.min() of an empty batch *)
             | k :: l => Ok (fold_left Nat.min l k)
             end ;;
    nn <- rmap (fun i => p <- rget xt i ;; q <- rget (rows y) i ;;
                         kx <- rget (nums x) i ;; ky <- rget (nums y) i ;;
                         nearest_points least p q kx ky) (seq 0 b) ;;
    ts <- corresponding_points_alignment (of_tensor (width x) (rows x)) (of_tensor (width x) nn)
            (WTensor (width x) m) estimate_scale allow_reflection icp_eps ;;
    xt' <- rmap (fun i => t <- rget ts i ;; p <- rget (rows x) i ;; Ok (map (apply_similarity t) p))
                (seq 0 b) ;;
    err <- rmap (fun i => p <- rget xt' i ;; q <- rget nn i ;; w <- rget m i ;;
                   let sq := map (fun c => let d := sub3 (fst c) (snd c) in dot3 d d) (combine p q) in
                   Ok (sqrt (wmean1 icp_eps w sq))) (seq 0 b) ;;
    Ok (nn, ts, xt', err).

  (* points_alignment.py:172-223 the loop over at most [fuel] iterations *)
  Fixpoint icp_loop (fuel : nat) (estimate_scale allow_reflection : bool) (thr : R) (x y : points)
      (m : list (list R)) (xt : list (list vec3)) (prev : option (list R)) (ts : list similarity)
      (hist : list (list similarity)) : result solution :=
    match fuel with
    | O => Ok (Sol false prev xt ts hist)
    | S fuel =>
        r <- icp_step estimate_scale allow_reflection x y m xt ;;
        let '(nn, ts', xt', err) := r in
        let hist' := hist ++ [ts'] in
        let stop := forallb (fun i =>
                      match nth_error err i with
                      | Some e => small_change thr match prev with None => None | Some p => nth_error p i end e
                      | None => true
                      end) (seq 0 (length err)) in
        if stop then Ok (Sol true (Some err) xt' ts' hist')
        else icp_loop fuel estimate_scale allow_reflection thr x y m xt' (Some err) ts' hist'
    end.

  (* points_alignment.py:117-128: the mask of the real points of X is used only if some cloud
     is padded and some pair of clouds differs in size *)
  Definition icp_mask (x y : points) : list (list R) :=
    let padded p := existsb (fun k => (k <? width p)%nat) (nums p) in
    if (padded y || padded x) && existsb (fun p => negb (Nat.eqb (fst p) (snd p))) (combine (nums y) (nums x))
    then map (mask (width x)) (nums x)
    else map (fun _ => repeat 1 (width x)) (rows x).

  (* points_alignment.py:38-235 iterative_closest_point. init_transform is a batch of
     transforms whose shapes are checked (133-153). *)
  Definition iterative_closest_point (x y : points) (init : option (list similarity))
      (max_iterations : nat) (thr : R) (estimate_scale allow_reflection : bool) : result solution :=
    let b := length (rows x) in
    if negb (Nat.eqb b (length (rows y))) then Fail EValue else           (* 110-114 *)
    start <- match init with
             | Some ts => if Nat.eqb (length ts) b then Ok ts else Fail EValue
             | None => Ok (repeat (Sim id3 (V3 0 0 0) 1) b)
             end ;;
    xt <- match init with
          | Some _ => rmap (fun i => t <- rget start i ;; p <- rget (rows x) i ;;
                                     Ok (map (apply_similarity t) p)) (seq 0 b)
          | None => Ok (rows x)
          end ;;
    icp_loop max_iterations estimate_scale allow_reflection thr x y (icp_mask x y) xt None start [].
End Align.
