(* Model of ball_query and sample_farthest_points: csrc/ball_query/ball_query_cpu.cpp, ball_query.cu,
   csrc/sample_farthest_points/sample_farthest_points_cpu.cpp, sample_farthest_points.cu,
   ops/ball_query.py, ops/sample_farthest_points.py, ops/utils.py. Floats are exact reals. *)
From Verif Require Import Base RBase.
Local Open Scope R_scope.

(* squared distance loop: ball_query_cpu.cpp:53-57, sample_farthest_points_cpu.cpp:73-77 *)
Definition sqdist (p q : list R) : R :=
  fold_left (fun acc c => let diff := fst c - snd c in acc + diff * diff) (combine p q) 0.
(* ball_query_cpu.cpp:45-49: loop over d that stops at the first coordinate outside *)
Fixpoint in_cube (radius : R) (c : list (R * R)) : bool :=
  match c with
  | [] => true
  | (a, b) :: r => if Rleb (Rabs (a - b)) radius then in_cube radius r else false
  end.
(* ball_query_cpu.cpp:43-63 (and ball_query.cu:54-84): scan for one query point. The row of outputs is
   written in place; a write outside of the row is an error. *)
Fixpoint bq_loop (skip : bool) (radius : R) (K : nat) (p : list R) (p2 : list (list R)) (js : list nat)
    (count : nat) (idxs : list Z) (dists : list R) : result (list Z * list R) :=
  match js with
  | [] => Ok (idxs, dists)
  | j :: js =>
      if (count <? K)%nat then
        q <- rget p2 j ;;
        if skip && negb (in_cube radius (combine p q))
        then bq_loop skip radius K p p2 js count idxs dists
        else let dist2 := sqdist p q in
             if Rltb dist2 (radius * radius)
             then dists <- upd dists count dist2 ;;
                  idxs <- upd idxs count (Z.of_nat j) ;;
                  bq_loop skip radius K p p2 js (S count) idxs dists
             else bq_loop skip radius K p p2 js count idxs dists
      else Ok (idxs, dists)
  end.
Definition bq_row (skip : bool) (radius : R) (K length2 : nat) (p : list R) (p2 : list (list R)) : result (list Z * list R) :=
  bq_loop skip radius K p p2 (seq 0 length2) 0 (repeat (-1)%Z K) (repeat 0 K).
(* ball_query_cpu.cpp:26-27,42: rows at or past length1 keep their fill values *)
Definition bq_cloud (skip : bool) (radius : R) (K length1 length2 : nat) (p1 p2 : list (list R)) : result (list (list Z * list R)) :=
  rmap (fun i => if (i <? length1)%nat then p <- rget p1 i ;; bq_row skip radius K length2 p p2
                 else Ok (repeat (-1)%Z K, repeat 0 K)) (seq 0 (length p1)).
(* ops/utils.py:19-66 masked_gather, one batch element and one row of indices; zero is a zero point.
   gather raises on an index outside of the tensor. *)
Definition masked_gather {A} (zero : A) (points : list A) (idx : list Z) : result (list A) :=
  rmap (fun i => let j := if (i =? -1)%Z then 0%Z else i in
                 if (j <? 0)%Z then Fail ERuntime
                 else match nth_error points (Z.to_nat j) with
                      | Some v => Ok (if (i =? -1)%Z then zero else v)
                      | None => Fail ERuntime
                      end) idx.
(* ops/ball_query.py:58-155, one batch element; the batch and dimension checks are on whole tensors *)
Definition ball_query (skip : bool) (radius : R) (K : nat) (lengths1 lengths2 : option nat) (D1 D2 : nat) (p1 p2 : list (list R))
  : result (list (list Z * list R * list (list R))) :=
  if negb (D1 =? D2)%nat then Fail EValue
  else let l1 := match lengths1 with None => length p1 | Some l => l end in
       let l2 := match lengths2 with None => length p2 | Some l => l end in
       rows <- bq_cloud skip radius K l1 l2 p1 p2 ;;
       rmap (fun r => nn <- masked_gather (repeat 0 D2) p2 (fst r) ;; Ok (fst r, snd r, nn)) rows.

(* ball_query.cu:34-45 (the same scheme as in the knn and other per-point kernels): the work items (cloud,
   point) that thread t of block b visits, as a grid-stride loop over chunks. *)
Definition chunks_per_cloud (P blockDim : nat) : nat := 1 + (P - 1) / blockDim.
Definition grid_stride (b gridDim todo : nat) : list nat :=
  map (fun k => b + k * gridDim)%nat (seq 0 ((todo - b + gridDim - 1) / gridDim)).
Definition thread_items (N P gridDim blockDim b t : nat) : list (nat * nat) :=
  let cpc := chunks_per_cloud P blockDim in
  map (fun chunk => (chunk / cpc, blockDim * (chunk mod cpc) + t)%nat) (grid_stride b gridDim (N * cpc)).
Definition kernel_items (N P gridDim blockDim : nat) (length1 : nat -> nat) : list (nat * nat) :=
  filter (fun ni => snd ni <? length1 (fst ni))%nat
    (flat_map (fun b => flat_map (thread_items N P gridDim blockDim b) (seq 0 blockDim)) (seq 0 gridDim)).

(* ---- farthest point sampling *)
(* None is std::numeric_limits<float>::max() *)
Definition dlt (a b : option R) : bool :=
  match a, b with Some x, Some y => Rltb x y | Some _, None => true | None, _ => false end.
(* std::max_element: index of the first largest *)
Fixpoint max_el (best : option R) (besti i : nat) (l : list (option R)) : nat :=
  match l with
  | [] => besti
  | x :: r => if dlt best x then max_el x i (S i) r else max_el best besti (S i) r
  end.
Definition max_element (l : list (option R)) : nat := match l with [] => O | x :: r => max_el x 0 1 r end.
(* sample_farthest_points_cpu.cpp:63-86, the loop over points of one iteration *)
Definition fps_dists (pts : list (list R)) (len last_idx : nat) (mask : list bool) (dists : list (option R)) : result (list (option R)) :=
  rmap (fun p => m <- rget mask p ;; d <- rget dists p ;;
                 if m then Ok (Some 0)
                 else x <- rget pts last_idx ;; y <- rget pts p ;;
                      let dist2 := sqdist x y in
                      Ok (if dlt (Some dist2) d then Some dist2 else d)) (seq 0 len).
(* 61-98; the outer loop over k with its state (sampled row, last_idx, mask, dists) *)
Record fps_state := FS { fs_row : list Z; fs_last : nat; fs_mask : list bool; fs_dists : list (option R) }.
Definition fps_iter (pts : list (list R)) (len : nat) (s : fps_state) (k : nat) : result fps_state :=
  dists <- fps_dists pts len (fs_last s) (fs_mask s) (fs_dists s) ;;
  let last_idx := max_element dists in
  row <- upd (fs_row s) k (Z.of_nat last_idx) ;;
  mask <- upd (fs_mask s) last_idx true ;;
  Ok (FS row last_idx mask dists).
(* std::vector::resize *)
Definition resize {A} (n : nat) (v : A) (l : list A) : list A := firstn n l ++ repeat v (n - length l).
(* 45-99 for one cloud; mask and dists are the vectors left by the previous cloud *)
Definition fps_cloud (max_K : nat) (pts : list (list R)) (len K start : nat) (mask : list bool) (dists : list (option R))
  : result (list Z * list bool * list (option R)) :=
  let mask := resize len false mask in
  let dists := resize len (Some 0) dists in
  let mask := map (fun _ => false) mask in
  let dists := map (fun _ => None) dists in
  row <- upd (repeat (-1)%Z max_K) 0 (Z.of_nat start) ;;
  mask <- upd mask start true ;;
  let batch_k := Nat.min len K in
  s <- rfold (fps_iter pts len) (seq 1 (batch_k - 1)) (FS row start mask dists) ;;
  Ok (fs_row s, fs_mask s, fs_dists s).
Record fps_in := FI { fi_pts : list (list R); fi_len : nat; fi_K : nat; fi_start : nat }.
Definition fps_batch (P : nat) (clouds : list fps_in) : result (list (list Z)) :=
  let max_K := max_nat (map fi_K clouds) in
  r <- rfold (fun st c => let '(rows, mask, dists) := st in
               o <- fps_cloud max_K (fi_pts c) (fi_len c) (fi_K c) (fi_start c) mask dists ;;
               let '(row, mask, dists) := o in Ok (rows ++ [row], mask, dists))
        clouds ([], repeat false P, repeat None P) ;;
  Ok (fst (fst r)).
(* ops/sample_farthest_points.py:18-103: checks on lengths (torch.max of an empty batch raises), then the
   kernel and the gather. Start indices are 0 or random numbers below the length. *)
Definition sample_farthest_points (D P : nat) (clouds : list fps_in) : result (list (list Z * list (list R))) :=
  match clouds with
  | [] => Fail ERuntime
  | _ => if existsb (fun c => P <? fi_len c)%nat clouds then Fail EValue
         else rows <- fps_batch P clouds ;;
              rmap (fun rc => pts <- masked_gather (repeat 0 D) (fi_pts (snd rc)) (fst rc) ;; Ok (fst rc, pts)) (combine rows clouds)
  end.

(* sample_farthest_points_naive, 142-194, one cloud: closest_dists starts at infinity and argmax is any
   index of a maximal entry (argmax parameter) *)
Definition fps_naive_iter (argmax : list (option R) -> nat) (pts : list (list R)) (len : nat) (s : list Z * nat * list (option R)) (k : nat)
  : result (list Z * nat * list (option R)) :=
  let '(row, sel, closest) := s in
  x <- rget pts sel ;;
  closest <- rmap (fun p => y <- rget pts p ;; c <- rget closest p ;;
                            let d := sqdist x y in Ok (match c with None => Some d | Some m => Some (Rmin d m) end)) (seq 0 len) ;;
  let sel := argmax closest in
  row <- upd row k (Z.of_nat sel) ;;
  Ok (row, sel, closest).
Definition fps_naive (argmax : list (option R) -> nat) (max_K : nat) (pts : list (list R)) (len K start : nat) : result (list Z) :=
  row <- upd (repeat (-1)%Z max_K) 0 (Z.of_nat start) ;;
  s <- rfold (fps_naive_iter argmax pts len) (seq 1 (Nat.min len K - 1)) (row, start, repeat None len) ;;
  Ok (fst (fst s)).

(* sample_farthest_points.cu:52-101: one block per cloud. thread_max is the loop of thread t over its
   points; (index, value) pairs are reduced by cub::ArgMax (larger value, then smaller key), in any order *)
Definition thread_max (dists : list R) (B t : nat) : nat * R :=
  fold_left (fun m p => if Rltb (snd m) (nth p dists 0) then (p, nth p dists 0) else m)
            (filter (fun p => p mod B =? t)%nat (seq 0 (length dists))) (O, -1).
Definition arg_max (a b : nat * R) : nat * R :=
  if Rltb (snd a) (snd b) || (Reqb (snd a) (snd b) && (fst b <? fst a)%nat) then b else a.
Definition block_argmax (dists : list R) (B : nat) (order : list nat) : nat :=
  match map (thread_max dists B) order with [] => O | m :: r => fst (fold_left arg_max r m) end.
Definition fps_cuda_iter (B : nat) (order : nat -> list nat) (pts : list (list R)) (len : nat) (s : list Z * nat * list R) (k : nat)
  : result (list Z * nat * list R) :=
  let '(row, sel, mind) := s in
  x <- rget pts sel ;;
  mind <- rmap (fun p => y <- rget pts p ;; m <- rget mind p ;; Ok (Rmin (sqdist x y) m)) (seq 0 len) ;;
  let sel := block_argmax mind B (order k) in
  row <- upd row k (Z.of_nat sel) ;;
  Ok (row, sel, mind).
Definition fps_cuda (B : nat) (order : nat -> list nat) (max_K : nat) (pts : list (list R)) (len K start : nat) : result (list Z) :=
  row <- upd (repeat (-1)%Z max_K) 0 (Z.of_nat start) ;;
  s <- rfold (fps_cuda_iter B order pts len) (seq 1 (Nat.min K len - 1)) (row, start, repeat 10000000000 len) ;;
  Ok (fst (fst s)).

(* ---- ops/utils.py *)
(* wmean, 69-107, over one axis *)
Definition wmean (eps : R) (x : list R) (w : option (list R)) : result R :=
  match w with
  | None => Ok (rsum x / INR (length x))
  | Some w => if (length w =? length x)%nat
              then Ok (rsum (map (fun p => fst p * snd p) (combine x w)) / Rmax (rsum w) eps)
              else Fail EValue
  end.
(* get_point_covariances, 166-205, for one point: nn are its gathered neighbours (as coordinate functions) *)
Definition nn_mean (nn : list (nat -> R)) (d : nat) : R := rsum (map (fun q => q d) nn) / INR (length nn).
Definition point_cov (nn : list (nat -> R)) (a b : nat) : R :=
  rsum (map (fun q => (q a - nn_mean nn a) * (q b - nn_mean nn b)) nn) / INR (length nn).
