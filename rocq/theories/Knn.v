(* Model of csrc/knn/knn_cpu.cpp and ops/knn.py. Floats are exact reals. *)
From Verif Require Import Base RBase TopK.
Local Open Scope R_scope.

(* operator< of std::tuple<float,int> *)
Definition pair_ltb (a b : R * nat) : bool :=
  Rltb (fst a) (fst b) || (negb (Rltb (fst b) (fst a)) && (snd a <? snd b)%nat).

(* knn_cpu.cpp:42-50. Coordinates are lists of length D. *)
Definition pdist (norm : nat) (p q : list R) : R :=
  fold_left (fun dist c => let diff := fst c - snd c in
               if (norm =? 1)%nat then dist + Rabs diff else dist + diff * diff)
            (combine p q) 0.

(* knn_cpu.cpp:51-57. top() of an empty queue (only for K = 0) is undefined in C++ *)
Definition knn_step (K : nat) (q : list (R * nat)) (e : R * nat) : list (R * nat) :=
  let size := length q in
  if (size <? K)%nat ||
     match pq_top q with Some t => Rltb (fst e) (fst t) | None => false end
  then let q' := insert pair_ltb e q in
       if (K <=? size)%nat then pq_pop q' else q'
  else q.

(* knn_cpu.cpp:38-66 for one query point: the queue after the scan of the first length2
   points of p2, then the output rows (dists, idxs), pre-filled with zeros (25-26) *)
Definition knn_queue (norm K : nat) (p : list R) (p2 : list (list R)) (length2 : nat)
  : result (list (R * nat)) :=
  rfold (fun q i2 => x <- rget p2 i2 ;; Ok (knn_step K q (pdist norm p x, i2)))
        (seq 0 length2) [].

Definition fill_row {A} (K : nat) (zero : A) (l : list A) : list A := l ++ repeat zero (K - length l).

Definition knn_query (norm K : nat) (p : list R) (p2 : list (list R)) (length2 : nat)
  : result (list R * list nat) :=
  q <- knn_queue norm K p p2 length2 ;;
  Ok (fill_row K 0 (map fst q), fill_row K 0%nat (map snd q)).

(* knn_cpu.cpp:35-68 for one batch element: rows at or past length1 keep their zeros *)
Definition knn_cloud (norm K : nat) (p1 p2 : list (list R)) (length1 length2 : nat)
  : result (list (list R * list nat)) :=
  rmap (fun i1 => if (i1 <? length1)%nat
                  then p <- rget p1 i1 ;; knn_query norm K p p2 length2
                  else Ok (repeat 0 K, repeat 0%nat K)) (seq 0 (length p1)).

(* ---- ops/knn.py ---- *)
Inductive ext := Fin (r : R) | Inf.
Definition ext_le (a b : ext) : Prop :=
  match a, b with
  | Fin x, Fin y => x <= y
  | _, Inf => True
  | Inf, Fin _ => False
  end.
Definition gather {A} (d : A) (l : list A) (idx : list nat) : list A := map (fun i => nth i l d) idx.

(* torch.sort along the last dimension returns some permutation that sorts (not
   necessarily stable) *)
Definition sorts (sort : list ext -> list nat) : Prop :=
  forall l, Permutation (sort l) (seq 0 (length l)) /\
    forall i j, (i < j < length l)%nat ->
      ext_le (nth i (gather Inf l (sort l)) Inf) (nth j (gather Inf l (sort l)) Inf).

(* ops/knn.py:77-89 for one row. min_length2 is lengths2.min() over the whole batch. *)
Definition knn_sort_row (sort : list ext -> list nat) (K min_length2 length2 : nat)
    (return_sorted : bool) (row : list R * list nat) : list ext * list nat :=
  let dists := map Fin (fst row) in
  let idx := snd row in
  if (1 <? K)%nat && return_sorted then
    if (min_length2 <? K)%nat then
      let mask k := (length2 <=? k)%nat in
      let masked := map (fun k => if mask k then Inf else nth k dists Inf) (seq 0 K) in
      let si := sort masked in
      let sorted := gather Inf masked si in
      (map (fun k => if mask k then Fin 0 else nth k sorted Inf) (seq 0 K), gather 0%nat idx si)
    else
      let si := sort dists in
      (gather Inf dists si, gather 0%nat idx si)
  else (dists, idx).

(* ops/knn.py:115-198 knn_points for one batch element *)
Definition knn_points (sort : list ext -> list nat) (norm K : nat) (return_sorted : bool)
    (min_length2 : nat) (p1 p2 : list (list R)) (length1 length2 : nat)
  : result (list (list ext * list nat)) :=
  if negb ((norm =? 1)%nat || (norm =? 2)%nat) then Fail EValue           (* 71-72 *)
  else rows <- knn_cloud norm K p1 p2 length1 length2 ;;
       Ok (map (knn_sort_row sort K min_length2 length2 return_sorted) rows).

(* ops/knn.py:201-251 knn_gather for one batch element and one query; zero is a zero row.
   gather raises on an index outside of x. *)
Definition knn_gather {A} (zero : A) (min_length K length2 : nat) (x : list A) (idx : list nat)
  : result (list A) :=
  out <- rmap (fun i => match nth_error x i with Some v => Ok v | None => Fail ERuntime end) idx ;;
  Ok (if (min_length <? K)%nat
      then map (fun k => if (length2 <=? k)%nat then zero else nth k out zero) (seq 0 K)
      else out).

(* ---- knn_cpu.cpp:75-128, one batch element ---- *)
(* points and gradients as functions of (point, coordinate); the accumulation
   grad[i][d] += diff over the loops is the sum of the diffs that hit the cell (i,d).
   idx has the pad value -1 for "no neighbour" (ball_query reuses this backward). *)
Definition knn_diff (norm : nat) (p1 p2 : nat -> nat -> R) (g : nat -> nat -> R)
    (i1 k i2 d : nat) : R :=
  if (norm =? 1)%nat
  then g i1 k * (if Rltb (p2 i2 d) (p1 i1 d) then 1 else -1)
  else 2 * g i1 k * (p1 i1 d - p2 i2 d).
(* 98-119: contribution of loop iteration (i1,k) to cell (i,d) of grad_p1 / (j,d) of grad_p2 *)
Definition knn_grad_p1 (norm K length1 length2 : nat) (idx : nat -> nat -> Z)
    (p1 p2 g : nat -> nat -> R) (i d : nat) : R :=
  let l2 := if (length2 <? K)%nat then length2 else K in
  sumf length1 (fun i1 => sumf l2 (fun k =>
     if (idx i1 k =? -1)%Z then 0
     else if (i1 =? i)%nat then knn_diff norm p1 p2 g i1 k (Z.to_nat (idx i1 k)) d else 0)).
Definition knn_grad_p2 (norm K length1 length2 : nat) (idx : nat -> nat -> Z)
    (p1 p2 g : nat -> nat -> R) (j d : nat) : R :=
  let l2 := if (length2 <? K)%nat then length2 else K in
  sumf length1 (fun i1 => sumf l2 (fun k =>
     if (idx i1 k =? -1)%Z then 0
     else if (Z.to_nat (idx i1 k) =? j)%nat
          then -1 * knn_diff norm p1 p2 g i1 k (Z.to_nat (idx i1 k)) d else 0)).
