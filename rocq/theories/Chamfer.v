(* Model of loss/chamfer.py on top of the model of knn_points. Floats are exact reals. *)
From Coq Require Import ZArith Reals Bool.
From Verif Require Import Base RBase Knn.
Local Open Scope R_scope.

(* a tensor of shape (N, P, D) *)
Record tensor3 := { t_points : nat; t_dim : nat; t_data : list (list (list R)) }.
(* reductions; strings that name no reduction raise ValueError (28-33) and are not represented *)
Inductive point_red := PSum | PMean | PMax.
Inductive batch_red := BSum | BMean.
(* 15-35 *)
Definition valid_reductions (b : option batch_red) (p : option point_red) : bool := match p, b with None, Some _ => false | _, _ => true end.
(* 38-73. A Pointclouds object gives its padded points, sizes and padded normals and the other arguments are
   ignored. lengths.max() of an empty batch raises. *)
Inductive input := FromTensor (x : tensor3) | FromClouds (x : tensor3) (lengths : list nat) (normals : option (list (list (list R)))).
Definition handle_input (p : input) (lengths : option (list nat)) (normals : option (list (list (list R))))
  : result (tensor3 * list nat * option (list (list (list R)))) :=
  match p with
  | FromClouds x l n => Ok (x, l, n)
  | FromTensor x =>
      match lengths with
      | None => Ok (x, repeat (t_points x) (length (t_data x)), normals)
      | Some l => if negb (length l =? length (t_data x))%nat then Fail EValue
                  else match l with
                       | [] => Fail ERuntime
                       | _ => if (t_points x <? max_nat l)%nat then Fail EValue else Ok (x, l, normals)
                       end
      end
  end.

(* results of the reductions *)
Inductive tens := V (l : list R) | M (m : list (list R)).
Definition min_of (l : list nat) : nat := match l with [] => 0%nat | a :: l => fold_left Nat.min l a end.
Definition mask_row (len : nat) (row : list R) : list R := map (fun p => if (len <=? fst p)%nat then 0 else snd p) (combine (seq 0 (length row)) row).
Definition dot (a b : list R) : R := rsum (map (fun p => fst p * snd p) (combine a b)).
(* F.cosine_similarity(eps=1e-6) *)
Definition cosine (a b : list R) : R := dot a b / (Rmax (sqrt (dot a a)) (/ 1000000) * Rmax (sqrt (dot b b)) (/ 1000000)).

Section Single.
(* torch.sort, which is not used for one neighbour *)
Variable sort : list ext -> list nat.
(* 112: knn_points(K=1) for one cloud: the distance and the index of every point *)
Definition nearest_rows (norm : nat) (x y : list (list R)) (xl yl ymin : nat) : result (list (R * nat)) :=
  rows <- knn_points sort norm 1 true ymin x y xl yl ;;
  rmap (fun r => match r with ([Fin d], [j]) => Ok (d, j) | _ => Fail ERuntime end) rows.
(* 124-137: normals of one cloud. The gather raises for an index outside of y_normals. *)
Definition normal_rows (abs_cosine : bool) (xn yn : list (list R)) (yl ymin : nat) (idx : list nat) : result (list R) :=
  if negb (length xn =? length idx)%nat then Fail ERuntime
  else near <- rmap (fun j => out <- knn_gather [0; 0; 0] ymin 1 yl yn [j] ;; match out with [v] => Ok v | _ => Fail ERuntime end) idx ;;
       Ok (map (fun p => 1 - (if abs_cosine then Rabs (cosine (fst p) (snd p)) else cosine (fst p) (snd p))) (combine xn near)).
Definition scale_rows (w : option (list R)) (rows : list (list R)) : list (list R) :=
  match w with None => rows | Some w => map (fun p => map (fun d => d * fst p) (snd p)) (combine w rows) end.
(* 138-152: the reductions over the points; max over no points raises *)
Definition row_max (l : list R) : result R := match l with [] => Fail EIndex | a :: l => Ok (fold_left Rmax l a) end.
Definition reduce_points (p : option point_red) (lengths : list nat) (rows : list (list R)) : result tens :=
  match p with
  | None => Ok (M rows)
  | Some PMax => l <- rmap row_max rows ;; Ok (V l)
  | Some PSum => Ok (V (map rsum rows))
  | Some PMean => Ok (V (map (fun q => rsum (snd q) / INR (Nat.max (fst q) 1)) (combine lengths rows)))
  end.
(* 76-156 *)
Definition single_direction (x y : tensor3) (xl yl : list nat) (xn yn : option (list (list (list R)))) (w : option (list R))
    (p : option point_red) (norm : nat) (abs_cosine : bool) : result (tens * option tens) :=
  let N := length (t_data x) in
  let het := existsb (fun l => negb (l =? t_points x)%nat) xl in
  if negb (length (t_data y) =? N)%nat || negb (t_dim y =? t_dim x)%nat then Fail EValue
  else
    match (match w with
           | None => Ok false
           | Some w => if negb (length w =? N)%nat then Fail EValue
                       else if negb (forallb (fun a => Rleb 0 a) w) then Fail EValue
                       else Ok (Reqb (rsum w) 0)
           end) with
    | Fail e => Fail e
    | Ok true => (* 110-112: (N) times (N,1) is an (N,N) tensor of zeros, for the normals as well *)
        Ok (M (repeat (repeat 0 N) N), Some (M (repeat (repeat 0 N) N)))
    | Ok false =>
        rows <- rmap (fun q => nearest_rows norm (fst (fst q)) (snd (fst q)) (fst (snd q)) (snd (snd q)) (min_of yl))
                     (combine (combine (t_data x) (t_data y)) (combine xl yl)) ;;
        let dists := map (map fst) rows in
        let dists := if het then map (fun q => mask_row (fst q) (snd q)) (combine xl dists) else dists in
        let dists := scale_rows w dists in
        d <- reduce_points p xl dists ;;
        match xn, yn with
        | Some xn, Some yn =>
            nr <- rmap (fun q => normal_rows abs_cosine (fst (fst q)) (snd (fst q)) (fst (snd q)) (min_of yl) (map snd (snd (snd q))))
                       (combine (combine xn yn) (combine yl rows)) ;;
            let nr := if het then map (fun q => mask_row (fst q) (snd q)) (combine xl nr) else nr in
            let nr := scale_rows w nr in
            match p with Some PMax => Fail ERuntime | _ => n <- reduce_points p xl nr ;; Ok (d, Some n) end     (* the assertion *)
        | _, _ => Ok (d, None)
        end
    end.

Inductive loss := Scalar (r : R) | One (t : tens) | Two (a b : tens).
Definition zip_tens (f : R -> R -> R) (a b : tens) : result tens :=
  match a, b with
  | V a, V b => if (length a =? length b)%nat then Ok (V (map (fun p => f (fst p) (snd p)) (combine a b))) else Fail ERuntime
  | M a, M b => if (length a =? length b)%nat then Ok (M (map (fun p => map (fun q => f (fst q) (snd q)) (combine (fst p) (snd p))) (combine a b))) else Fail ERuntime
  | _, _ => Fail ERuntime
  end.
(* 159-181 *)
Definition tens_sum (t : tens) : R := match t with V l => rsum l | M m => rsum (map rsum m) end.
Definition tens_len (t : tens) : nat := match t with V l => length l | M m => length m end.
Definition batch_reduce (l : loss) (n : option loss) (w : option (list R)) (b : option batch_red) : result (loss * option loss) :=
  match b with
  | None => Ok (l, n)
  | Some b =>
      match l with
      | One t =>
          let div := match b with
                     | BSum => 1
                     | BMean => match w with None => INR (Nat.max (tens_len t) 1) | Some w => if Reqb (rsum w) 0 then 1 else rsum w end
                     end in
          match n with
          | None => Ok (Scalar (tens_sum t / div), None)
          | Some (One u) => Ok (Scalar (tens_sum t / div), Some (Scalar (tens_sum u / div)))
          | Some _ => Fail EAttr
          end
      | _ => Fail EAttr                                                        (* a tuple has no shape *)
      end
  end.
(* 184-314 *)
Definition chamfer_distance (px py : input) (xl yl : option (list nat)) (xn yn : option (list (list (list R)))) (w : option (list R))
    (b : option batch_red) (p : option point_red) (norm : nat) (single_directional abs_cosine : bool) : result (loss * option loss) :=
  if negb (valid_reductions b p) then Fail EValue
  else if negb ((norm =? 1)%nat || (norm =? 2)%nat) then Fail EValue
  else if match p with Some PMax => match xn, yn with None, None => false | _, _ => true end | _ => false end then Fail EValue
  else
    X <- handle_input px xl xn ;;
    Y <- handle_input py yl yn ;;
    let '(x, xl, xn) := X in let '(y, yl, yn) := Y in
    r <- single_direction x y xl yl xn yn w p norm abs_cosine ;;
    let '(cx, nx) := r in
    ln <- (if single_directional then Ok (One cx, option_map One nx)
           else r <- single_direction y x yl xl yn xn w p norm abs_cosine ;;
                let '(cy, ny) := r in
                match p with
                | Some PMax => l <- zip_tens Rmax cx cy ;; Ok (One l, None)
                | Some _ => l <- zip_tens Rplus cx cy ;;
                            match nx, ny with
                            | Some nx, Some ny => n <- zip_tens Rplus nx ny ;; Ok (One l, Some (One n))
                            | Some _, None => Fail EType
                            | None, _ => Ok (One l, None)
                            end
                | None => match nx, ny with
                          | Some nx, Some ny => Ok (Two cx cy, Some (Two nx ny))
                          | Some _, None => Fail EType
                          | None, _ => Ok (Two cx cy, None)
                          end
                end) ;;
    batch_reduce (fst ln) (snd ln) w b.
End Single.
