(* The torch primitives that renderer/lighting.py and renderer/mesh/shading.py apply to tensors of any rank:
   broadcasting, views, reductions over the last dimension. A tensor is its shape and its entries (read only
   at indices inside the shape). Exact reals. *)
From Verif Require Import Base RBase.
Local Open Scope R_scope.

Record tensor := T { shp : list nat; get : list nat -> R }.

(* ---- broadcasting of two shapes, aligned at the last dimension ---- *)
Definition left_pad (k : nat) (s : list nat) : list nat := repeat 1%nat (k - length s) ++ s.
Fixpoint zipdims (a b : list nat) : result (list nat) :=
  match a, b with
  | [], [] => Ok []
  | x :: a, y :: b =>
      r <- zipdims a b ;;
      if (x =? y)%nat then Ok (x :: r)
      else if (x =? 1)%nat then Ok (y :: r)
      else if (y =? 1)%nat then Ok (x :: r)
      else Fail ERuntime
  | _, _ => Fail ERuntime
  end.
Definition bshape (a b : list nat) : result (list nat) :=
  let k := Nat.max (length a) (length b) in zipdims (left_pad k a) (left_pad k b).
(* the entry of a tensor of shape s that is read at the index idx of the broadcast shape *)
Definition pick (s idx : list nat) : list nat :=
  map (fun p => if (fst p =? 1)%nat then 0%nat else snd p) (combine s (skipn (length idx - length s) idx)).
(* a binary operation such as a + b, a * b, torch.pow(a, b) *)
Definition bop (f : R -> R -> R) (a b : tensor) : result tensor :=
  s <- bshape (shp a) (shp b) ;;
  Ok (T s (fun idx => f (get a (pick (shp a) idx)) (get b (pick (shp b) idx)))).
Definition tmap (f : R -> R) (a : tensor) : tensor := T (shp a) (fun idx => f (get a idx)).

(* ---- the last dimension ---- *)
Definition last_dim (a : tensor) : nat := last (shp a) 0%nat.
(* torch.sum(a, dim=-1) *)
Definition sum_last (a : tensor) : tensor :=
  T (removelast (shp a)) (fun idx => sumf (last_dim a) (fun c => get a (idx ++ [c]))).
(* a[..., None] *)
Definition unsqueeze_last (a : tensor) : tensor := T (shp a ++ [1%nat]) (fun idx => get a (removelast idx)).
(* F.normalize(a, p=2, dim=-1, eps=1e-6) *)
Definition normalize_last (a : tensor) : tensor :=
  T (shp a) (fun idx =>
    let q := removelast idx in
    get a idx / Rmax (sqrt (sumf (last_dim a) (fun c => get a (q ++ [c]) * get a (q ++ [c])))) (/ 1000000)).

(* ---- views: the entries in row-major order are kept ---- *)
Definition prod_nat (s : list nat) : nat := fold_right Nat.mul 1%nat s.
Fixpoint flat (s idx : list nat) : nat :=
  match s, idx with
  | _ :: s, i :: idx => (i * prod_nat s + flat s idx)%nat
  | _, _ => 0%nat
  end.
Fixpoint unflat (s : list nat) (n : nat) : list nat :=
  match s with
  | [] => []
  | _ :: s => (n / prod_nat s)%nat :: unflat s (n mod prod_nat s)%nat
  end.
(* a.view(-1, *rest) *)
Definition view_first (a : tensor) (rest : list nat) : result tensor :=
  let q := prod_nat rest in
  let total := prod_nat (shp a) in
  if ((q =? 0) || negb (total mod q =? 0))%nat then Fail ERuntime
  else let s := (total / q)%nat :: rest in
       Ok (T s (fun idx => get a (unflat (shp a) (flat s idx)))).
(* a.squeeze(): every dimension of size 1 is dropped *)
Fixpoint unsqueeze_at (s idx : list nat) : list nat :=
  match s with
  | [] => []
  | d :: s => if (d =? 1)%nat then 0%nat :: unsqueeze_at s idx
              else match idx with i :: idx => i :: unsqueeze_at s idx | [] => [] end
  end.
Definition squeeze (a : tensor) : tensor :=
  T (filter (fun d => negb (d =? 1)%nat) (shp a)) (fun idx => get a (unsqueeze_at (shp a) idx)).
(* a[:, None, None, None, :] of a matrix *)
Definition spread_batch (a : tensor) : result tensor :=
  match shp a with
  | [n; c] => Ok (T [n; 1; 1; 1; c]%nat (fun idx => get a [hd 0%nat idx; last idx 0%nat]))
  | _ => Fail EIndex
  end.
Definition shape_eqb (a b : list nat) : bool := if list_eq_dec Nat.eq_dec a b then true else false.
(* every index inside a shape *)
Fixpoint indices (s : list nat) : list (list nat) :=
  match s with
  | [] => [[]]
  | d :: s => flat_map (fun i => map (cons i) (indices s)) (seq 0 d)
  end.

(* ---- renderer/utils.py: batched properties ---- *)
(* convert_to_tensors_and_broadcast, 304-350, of tensors of at least one dimension (format_tensor gives
   scalars one); dtypes and devices are not modelled *)
Definition batch_size (a : tensor) : nat := hd 0%nat (shp a).
Definition expand_batch (n : nat) (a : tensor) : result tensor :=
  match shp a with
  | [] => Fail EIndex
  | d :: ds =>
      if (negb (d =? 1) && negb (d =? n))%nat then Fail EValue
      else Ok (T (n :: ds) (fun idx => get a (match idx with
                                              | i :: js => (if (d =? 1)%nat then 0%nat else i) :: js
                                              | [] => []
                                              end)))
  end.
Definition broadcast (l : list tensor) : result (list tensor) :=
  rmap (expand_batch (max_nat (map batch_size l))) l.
(* TensorProperties.gather_props, 185-253, one property, for a one-dimensional batch_idx *)
Definition gather_prop (idx : list nat) (a : tensor) : result tensor :=
  match shp a with
  | [] => Fail EIndex
  | d :: ds =>
      if (1 <? d)%nat then
        if forallb (fun i => i <? d)%nat idx
        then Ok (T (length idx :: ds) (fun ix => match ix with
                                                 | b :: js => get a (nth b idx 0%nat :: js)
                                                 | [] => 0
                                                 end))
        else Fail ERuntime
      else Ok a
  end.
