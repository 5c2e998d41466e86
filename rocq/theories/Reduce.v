(* Model of the shared-memory arg-min reduction of csrc/point_mesh/point_mesh_cuda.cu:111-126 (the loop over
   s > 32) and of csrc/utils/warp_reduce.cuh:29-80 WarpReduceMin, 82-131 WarpReduceMax (which no kernel calls).

   Every shared-memory load and store of every thread is one step. Between two barriers the steps of
   different threads may come in any order; the steps of one thread come in program order.
   A barrier (__syncthreads in the loop, __syncwarp in the unrolled tail) ends a phase: the next phase starts
   when every thread has finished the current one.
   Simplifications: sequentially consistent shared memory; scalars are reals; the AMD variant without
   __syncwarp (lockstep wavefronts) is not modelled. *)
From Verif Require Import Base RBase.
Local Open Scope R_scope.

(* the two shared arrays *)
Record mem := Mem { mval : nat -> R; midx : nat -> Z }.
Definition put {A} (f : nat -> A) (i : nat) (x : A) : nat -> A := fun j => if (j =? i)%nat then x else f j.

(* one shared-memory access (or the branch) of `if (a[tid] > a[tid+s]) { ... }` *)
Inductive act := LoadMine | LoadOther | Branch | LoadIdx | StoreIdx | LoadVal | StoreVal.
(* point_mesh_cuda.cu:114-117, warp_reduce.cuh:85-88: the value is copied first, then the index *)
Definition value_first : list act := [LoadMine; LoadOther; Branch; LoadVal; StoreVal; LoadIdx; StoreIdx].
(* warp_reduce.cuh:32-35: the index is copied first, then the value *)
Definition index_first : list act := [LoadMine; LoadOther; Branch; LoadIdx; StoreIdx; LoadVal; StoreVal].

(* a thread inside a phase: what it still has to do, and its registers. The registers are written before they
   are read; they start with the values of the thread's own cells. *)
Record lane := Lane { todo : list act; rmine : R; rother : R; rval : R; ridx : Z }.

Section Direction.
(* false: minimum (warp_reduce.cuh:32), true: maximum (warp_reduce.cuh:85) *)
Variable maximum : bool.
(* the condition of the branch: the other value replaces mine *)
Definition replaces (other mine : R) : bool := if maximum then Rltb mine other else Rltb other mine.

(* thread t, whose partner is t + s, does one action *)
Definition exec (s t : nat) (m : mem) (l : lane) : mem * lane :=
  match todo l with
  | [] => (m, l)
  | LoadMine :: k => (m, Lane k (mval m t) (rother l) (rval l) (ridx l))
  | LoadOther :: k => (m, Lane k (rmine l) (mval m (t + s)) (rval l) (ridx l))
  | Branch :: k => (m, Lane (if replaces (rother l) (rmine l) then k else []) (rmine l) (rother l) (rval l) (ridx l))
  | LoadIdx :: k => (m, Lane k (rmine l) (rother l) (rval l) (midx m (t + s)))
  | StoreIdx :: k => (Mem (mval m) (put (midx m) t (ridx l)), Lane k (rmine l) (rother l) (rval l) (ridx l))
  | LoadVal :: k => (m, Lane k (rmine l) (rother l) (mval m (t + s)) (ridx l))
  | StoreVal :: k => (Mem (put (mval m) t (rval l)) (midx m), Lane k (rmine l) (rother l) (rval l) (ridx l))
  end.

(* a schedule names the threads that do the next actions; threads outside the `if (tid < ...)` do nothing *)
Definition tick (s active : nat) (c : mem * (nat -> lane)) (t : nat) : mem * (nat -> lane) :=
  if (t <? active)%nat then
    let r := exec s t (fst c) (snd c t) in (fst r, put (snd c) t (snd r))
  else c.
Definition start (prog : list act) (m : mem) : mem * (nat -> lane) :=
  (m, fun t => Lane prog (mval m t) (mval m t) (mval m t) (midx m t)).
Definition run_phase (s active : nat) (prog : list act) (m : mem) (sched : list nat) : mem * (nat -> lane) :=
  fold_left (tick s active) sched (start prog m).
Definition all_done (active : nat) (c : mem * (nat -> lane)) : Prop := forall t, (t < active)%nat -> todo (snd c t) = [].
(* m' is a memory the phase may end with *)
Definition phase (s active : nat) (prog : list act) (m m' : mem) : Prop :=
  exists sched, all_done active (run_phase s active prog m sched) /\ m' = fst (run_phase s active prog m sched).

(* point_mesh_cuda.cu:112-113 `for (s = blockDim.x / 2; s > 32; s >>= 1)` with `if (tid < s)`, for blockDim.x = 2^k * 64 *)
Fixpoint loop_phases (k : nat) : list (nat * nat * list act) :=
  match k with O => [] | S k => ((2 ^ k * 64)%nat, (2 ^ k * 64)%nat, value_first) :: loop_phases k end.
(* warp_reduce.cuh:31-77, entered by the threads tid < 32 *)
Definition warp_phases (prog : list act) : list (nat * nat * list act) :=
  map (fun s => (s, 32%nat, prog)) [32; 16; 8; 4; 2; 1]%nat.
Inductive phases : list (nat * nat * list act) -> mem -> mem -> Prop :=
| phases_nil m : phases [] m m
| phases_cons s a p ps m m1 m2 : phase s a p m m1 -> phases ps m1 m2 -> phases ((s, a, p) :: ps) m m2.
Definition warp_order : list act := if maximum then value_first else index_first.
(* the whole reduction of a block of 2^k * 64 threads *)
Definition block_reduce (k : nat) : mem -> mem -> Prop := phases (loop_phases k ++ warp_phases warp_order).
End Direction.
