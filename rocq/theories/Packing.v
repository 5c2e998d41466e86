(* Model of pytorch3d/structures/utils.py and of the packed<->padded operators. *)
From Verif Require Import Base.

(* An n-dimensional torch tensor: its shape, and its entries as nested lists.
   Simplification: dtype, device and strides are not modelled. *)
Inductive tens (A : Type) :=
| Sc (a : A)
| Dm (l : list (tens A)).
Arguments Sc {A} a.
Arguments Dm {A} l.

Record tensor (A : Type) := mk { shape : list nat; data : tens A }.
Arguments mk {A} shape data.
Arguments shape {A} t.
Arguments data {A} t.

(* the data has the announced shape *)
Fixpoint has_shape {A} (s : list nat) (t : tens A) : Prop :=
  match s, t with
  | [], Sc _ => True
  | d :: s', Dm l => length l = d /\ Forall (has_shape s') l
  | _, _ => False
  end.
Definition wf {A} (t : tensor A) : Prop := has_shape (shape t) (data t).

(* entry at a multi-index *)
Fixpoint get {A} (t : tens A) (idx : list nat) : option A :=
  match t, idx with
  | Sc a, [] => Some a
  | Dm l, i :: idx' => match nth_error l i with Some x => get x idx' | None => None end
  | _, _ => None
  end.

(* torch.full(dims, v) *)
Fixpoint full {A} (dims : list nat) (v : A) : tens A :=
  match dims with
  | [] => Sc v
  | d :: ds => Dm (repeat (full ds v) d)
  end.

(* new_full(dims, v) followed by x[0:s0, 0:s1, ...] = y : y in the low corner *)
Fixpoint pad_into {A} (dims : list nat) (v : A) (t : tens A) : tens A :=
  match dims, t with
  | d :: ds, Dm l =>
      Dm (map (pad_into ds v) (firstn d l) ++ repeat (full ds v) (d - length l))
  | _, _ => t
  end.

(* x[0:s0, 0:s1, ...] *)
Fixpoint slice {A} (s : list nat) (t : tens A) : tens A :=
  match s, t with
  | d :: s', Dm l => Dm (map (slice s') (firstn d l))
  | _, _ => t
  end.

Definition len0 {A} (t : tensor A) : nat := hd 0 (shape t).
Definition ndim {A} (t : tensor A) : nat := length (shape t).
Definition numel {A} (t : tensor A) : nat := fold_right Nat.mul 1 (shape t).
Definition list_eqb (a b : list nat) : bool :=
  if list_eq_dec Nat.eq_dec a b then true else false.

(* assigning a (s0,s1,..) block to the slice [0:s0,0:s1,..] of a (p0,p1,..) tensor:
   the slice is clipped to the tensor; torch then needs the shapes to agree, up to
   broadcasting of a dimension of size 1 *)
Definition fits (s p : nat) : bool := (s <=? p) || ((s =? 1) && (p =? 0)).
Fixpoint fits_all (s p : list nat) : bool :=
  match s, p with
  | [], [] => true
  | a :: s', b :: p' => fits a b && fits_all s' p'
  | _, _ => false
  end.

(* structures/utils.py:19-79 list_to_padded *)
Definition list_to_padded {A} (x : list (tensor A)) (pad_size : option (list nat))
    (pad_value : A) (equisized : bool) : result (tensor A) :=
  if equisized then
    (* line 46: torch.stack(x, 0) *)
    match x with
    | [] => Fail ERuntime
    | y :: _ =>
        if forallb (fun z => list_eqb (shape z) (shape y)) x
        then Ok (mk (length x :: shape y) (Dm (map data x)))
        else Fail ERuntime
    end
  else
    match x with
    | [] => Fail EValue                       (* line 53: max() of an empty sequence *)
    | _ =>
      let element_ndim := max_nat (map ndim x) in               (* line 53 *)
      (* lines 56-59 *)
      let x := map (fun y => if (ndim y =? 1) && (numel y =? 0)
                             then mk (repeat 0 element_ndim) (Dm []) else y) x in
      let n0 := match x with [] => 0 | y :: _ => ndim y end in
      if existsb (fun y => negb (ndim y =? n0)) x then Fail EValue   (* 61-62 *)
      else if n0 =? 0 then Fail EType         (* len() of a 0-d tensor, lines 66/76 *)
      else
        dims <-
          match pad_size with
          | None =>                                             (* 64-67 *)
              match filter (fun y => negb (len0 y =? 0)) x with
              | [] => Fail EValue             (* max() of an empty sequence *)
              | ne => Ok (map (fun dim => max_nat (map (fun y => nth dim (shape y) 0) ne))
                              (seq 0 n0))
              end
          | Some ps =>                                          (* 68-71 *)
              if existsb (fun y => negb (length ps =? ndim y)) x then Fail EValue
              else Ok ps
          end ;;
        (* 73-79 *)
        rows <- rmap (fun y =>
                  if len0 y =? 0 then Ok (full dims pad_value)
                  else if fits_all (shape y) dims then Ok (pad_into dims pad_value (data y))
                  else Fail ERuntime) x ;;
        Ok (mk (length x :: dims) (Dm rows))
    end.

Inductive split_item := SInt (n : nat) | SSeq (l : list nat).
Fixpoint min_dims (s d : list nat) : list nat :=
  match s, d with
  | a :: s', b :: d' => Nat.min a b :: min_dims s' d'
  | _, _ => d
  end.

(* structures/utils.py:82-116 padded_to_list. Simplification: split sizes are not
   negative, and a sequence is not longer than the number of dimensions. *)
Definition padded_to_list {A} (x : tensor A) (split_size : option (list split_item))
    : result (list (tensor A)) :=
  match shape x, data x with
  | n :: rest, Dm l =>
      let x_list := map (mk rest) l in                          (* line 101 *)
      match split_size with
      | None => Ok x_list
      | Some ss =>
          if negb (n =? length ss) then Fail EValue             (* 106-108 *)
          else Ok (map (fun p =>                                (* 110-116 *)
                     let y := fst p in
                     match snd p with
                     | SInt k => mk (min_dims [k] (shape y)) (slice [k] (data y))
                     | SSeq s => mk (min_dims s (shape y)) (slice s (data y))
                     end) (combine x_list ss))
      end
  | _, _ => Fail ERuntime
  end.

(* ---- packed: a tensor is a list of rows; the type of a row is arbitrary ---- *)

(* torch.bucketize(v, boundaries, right=True) on an ascending list of boundaries:
   the number of boundaries b with b <= v *)
Definition bucketize_right (b : list nat) (v : nat) : nat := count_if (fun x => x <=? v) b.

(* structures/utils.py:119-154 list_to_packed; torch.cat's check that trailing
   dimensions agree is not modelled (all rows have the same type). The index table
   is in Z because the code subtracts 1. *)
Definition list_to_packed {A} (x : list (list A))
  : result (list A * list nat * list nat * list Z) :=
  match x with
  | [] => Fail EValue                                            (* 138-139 *)
  | _ =>
      let sizes := map (@length A) x in
      let sizes_total := sum_nat sizes in
      let first := 0 :: cumsum (removelast sizes) in             (* 144-145 *)
      let idx := map (fun i => (Z.of_nat (bucketize_right first i) - 1)%Z)
                     (seq 0 sizes_total) in                      (* 146-151 *)
      Ok (concat x, sizes, first, idx)
  end.

(* torch.Tensor.split(sizes): sizes must sum to the length *)
Fixpoint split_sizes {A} (x : list A) (ss : list nat) : list (list A) :=
  match ss with
  | [] => []
  | n :: ss' => firstn n x :: split_sizes (skipn n x) ss'
  end.

(* torch.Tensor.split(n): chunks of n rows, the last one may be smaller *)
Fixpoint split_int_fuel {A} (fuel n : nat) (x : list A) : list (list A) :=
  match fuel with
  | O => []
  | S f => match x with
           | [] => []
           | _ => firstn n x :: split_int_fuel f n (skipn n x)
           end
  end.

(* structures/utils.py:157-170 packed_to_list *)
Definition packed_to_list {A} (x : list A) (ss : list nat) : result (list (list A)) :=
  if sum_nat ss =? length x then Ok (split_sizes x ss) else Fail ERuntime.
Definition packed_to_list_int {A} (x : list A) (n : nat) : result (list (list A)) :=
  match x with
  | [] => Ok [ [] ]
  | _ => if n =? 0 then Fail ERuntime else Ok (split_int_fuel (length x) n x)
  end.

(* structures/utils.py:173-242 padded_to_packed. A padded tensor is a list of N
   lists of M rows. row_is_pad decides "every entry equals pad_value". *)
Definition padded_to_packed {A} (M : nat) (x : list (list A)) (split_size : option (list nat))
    (row_is_pad : option (A -> bool)) : result (list A) :=
  match split_size, row_is_pad with
  | Some _, Some _ => Fail EValue                                (* 204-205 *)
  | None, None => Ok (concat x)                                  (* 207-210 *)
  | None, Some p => Ok (filter (fun r => negb (p r)) (concat x)) (* 213-216 *)
  | Some ss, None =>
      if negb (length x =? length ss) then Fail EValue           (* 221-223 *)
      else
        let idx := concat (map (fun iv => map (fun j => j + fst iv * M) (seq 0 (snd iv)))
                               (combine (seq 0 (length ss)) ss)) in
        rmap (fun k => match nth_error (concat x) k with
                       | Some r => Ok r | None => Fail EIndex end) idx
  end.

(* ---- csrc/packed_to_padded_tensor/packed_to_padded_tensor_cpu.cpp ---- *)
(* Rows are D-vectors of floats; the innermost loop over j copies one row. *)

(* lines 33-34: the half-open range of packed rows of batch element b *)
Definition elem_range (first : list nat) (batch_size num_inputs b : nat) : result (Z * Z) :=
  start <- rget first b ;;
  stop <- (if b + 1 <? batch_size then rget first (b + 1) else Ok num_inputs) ;;
  Ok (Z.of_nat start, Z.of_nat stop).

(* PackedToPaddedCpu, lines 11-43; zero is the zero row. Accesses outside of a
   tensor are undefined behaviour in C++ and EOutOfBounds here. *)
Definition packed_to_padded_cpu {A} (zero : A) (inputs_packed : list A) (first : list nat)
    (max_size : nat) : result (list (list A)) :=
  let num_inputs := length inputs_packed in
  let batch_size := length first in
  rfold (fun padded b =>
      rng <- elem_range first batch_size num_inputs b ;;
      let num := Z.to_nat (snd rng - fst rng) in
      rfold (fun padded i =>
          v <- rget inputs_packed (Z.to_nat (fst rng) + i) ;;
          row <- rget padded b ;;
          row' <- upd row i v ;;
          upd padded b row') (seq 0 num) padded)
    (seq 0 batch_size) (repeat (repeat zero max_size) batch_size).

(* PaddedToPackedCpu, lines 45-77 *)
Definition padded_to_packed_cpu {A} (zero : A) (inputs_padded : list (list A)) (first : list nat)
    (num_inputs : nat) : result (list A) :=
  let batch_size := length inputs_padded in
  rfold (fun packed b =>
      rng <- elem_range first batch_size num_inputs b ;;
      let num := Z.to_nat (snd rng - fst rng) in
      rfold (fun packed i =>
          row <- rget inputs_padded b ;;
          v <- rget row i ;;
          upd packed (Z.to_nat (fst rng) + i) v) (seq 0 num) packed)
    (seq 0 batch_size) (repeat zero num_inputs).
