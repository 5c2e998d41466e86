(* Model of csrc/rasterize_coarse/bitmask.cuh: a 3-d bit array in 32-bit words. *)
From Verif Require Import Base.
Local Open Scope N_scope.

(* bitmask.cuh:19-24. B = 8 * sizeof(unsigned int) = 32, D = N / B. The assignment to N in
   the constructor body (22) changes only the parameter and has no effect. *)
Definition B : nat := 32%nat.
Definition words (N : nat) : nat := (N / B)%nat.

(* bitmask.cuh:27-32 block_clear: indices visited by thread tid of a block of nthreads;
   the loop runs at most total times *)
Fixpoint clear_loop (i step total fuel : nat) : list nat :=
  match fuel with
  | O => []
  | S f => if (i <? total)%nat then i :: clear_loop (i + step) step total f else []
  end.
Definition clear_cells (tid nthreads total : nat) : list nat := clear_loop tid nthreads total total.
Definition clear_trace (nthreads total : nat) : list nat :=
  concat (map (fun t => clear_cells t nthreads total) (seq 0 nthreads)).
Definition run_clear (trace : list nat) (data : list N) : result (list N) :=
  rfold (fun d i => upd d i 0) trace data.

(* 34-40 *)
Definition elem_idx (W D y x d : nat) : nat := (y * W * D + x * D + d / B)%nat.
Definition bit_idx (d : nat) : N := N.of_nat (d mod B).

Inductive bop := BSet (y x d : nat) | BUnset (y x d : nat).
(* 43-56: atomicOr / atomicAnd on one word; masks are 32 bits wide *)
Definition bm_op (W D : nat) (data : list N) (o : bop) : result (list N) :=
  match o with
  | BSet y x d =>
      w <- rget data (elem_idx W D y x d) ;;
      upd data (elem_idx W D y x d) (N.lor w (N.shiftl 1 (bit_idx d)))
  | BUnset y x d =>
      w <- rget data (elem_idx W D y x d) ;;
      upd data (elem_idx W D y x d) (N.land w (N.lnot (N.shiftl 1 (bit_idx d)) 32))
  end.
Definition bm_run (W D : nat) (data : list N) (ops : list bop) : result (list N) :=
  rfold (bm_op W D) ops data.
(* 59-63 *)
Definition bm_get (W D : nat) (data : list N) (y x d : nat) : result bool :=
  w <- rget data (elem_idx W D y x d) ;;
  Ok (N.testbit (N.land (N.shiftr w (bit_idx d)) 1) 0).
(* __popc *)
Definition popc (w : N) : nat := count_if (fun i => N.testbit w (N.of_nat i)) (seq 0 32).
(* 66-74 *)
Definition bm_count (W D : nat) (data : list N) (y x : nat) : result nat :=
  rfold (fun total i => w <- rget data (y * W * D + x * D + i)%nat ;; Ok (total + popc w)%nat)
        (seq 0 D) 0%nat.
