(* Model of the thread partitions in
   csrc/sample_pdf/sample_pdf_cpu.cpp and csrc/rasterize_meshes/rasterize_meshes_cpu.cpp. *)
From Verif Require Import Base.
Local Open Scope Z_scope.

(* sample_pdf_cpu.cpp:110-111. num_threads is at::get_num_threads(). C++ / is Z.quot. *)
Definition pdf_n_threads (num_threads batch_size : Z) : Z :=
  Z.min (Z.min 4 num_threads) batch_size.

(* sample_pdf_cpu.cpp:122-133: the ranges handed to the n-1 extra threads *)
Fixpoint pdf_thread_ranges (n : nat) (start per : Z) : list (Z * Z) * Z :=
  match n with
  | O => ([], start)
  | S n' => let r := pdf_thread_ranges n' (start + per) per in
            ((start, start + per) :: fst r, snd r)
  end.

(* sample_pdf_cpu.cpp:104-142: all worker ranges [start_batch, end_batch), the last one
   being the one handled by the calling thread (line 137) *)
Definition pdf_ranges (num_threads batch_size : Z) : list (Z * Z) :=
  if batch_size =? 0 then []                                      (* 112-114 *)
  else
    let n_threads := pdf_n_threads num_threads batch_size in
    let per := 1 + Z.quot (batch_size - 1) n_threads in           (* 121 *)
    let r := pdf_thread_ranges (Z.to_nat (n_threads - 1)) 0 per in
    fst r ++ [(snd r, batch_size)].

(* sample_pdf_cpu.cpp:36,42,60,96-97: the output cells written by one worker, in order.
   The cell of (batch element b, sample s) is b * n_samples + s. *)
Definition pdf_worker_cells (n_samples : Z) (r : Z * Z) : list Z :=
  map (fun k => fst r * n_samples + Z.of_nat k)
      (seq 0 (Z.to_nat ((snd r - fst r) * n_samples))).

(* rasterize_meshes_cpu.cpp:353-383: row ranges [start_yi, end_yi) of the threads *)
Fixpoint raster_ranges_from (n : nat) (start chunk H : Z) : list (Z * Z) :=
  match n with
  | O => []
  | S n' => (start, Z.min (start + chunk) H) :: raster_ranges_from n' (start + chunk) chunk H
  end.
Definition raster_ranges (num_threads H : Z) : list (Z * Z) :=
  let chunk_size := 1 + Z.quot (H - 1) num_threads in
  raster_ranges_from (Z.to_nat num_threads) 0 chunk_size H.

(* the rows a worker writes (rasterize_meshes_cpu.cpp:152) *)
Definition range_rows (r : Z * Z) : list Z :=
  map (fun k => fst r + Z.of_nat k) (seq 0 (Z.to_nat (snd r - fst r))).

(* Shared memory. Each step of a worker rewrites one cell from the old content of this
   cell and from read-only inputs (sample_pdf_cpu.cpp:67-96; for the rasterizer the cell
   is one row of the four output tensors and the old content is not used).
   Simplification: the update of one cell is atomic. *)
Definition step_cell {A} (f : Z -> A -> A) (mem : list A) (k : Z) : result (list A) :=
  if k <? 0 then Fail EOutOfBounds
  else a <- rget mem (Z.to_nat k) ;; upd mem (Z.to_nat k) (f k a).

Definition run_trace {A} (f : Z -> A -> A) (trace : list Z) (mem : list A) : result (list A) :=
  rfold (step_cell f) trace mem.

(* every interleaving of the workers' instruction sequences *)
Inductive interleaving {A} : list (list A) -> list A -> Prop :=
| il_done : forall ws, Forall (fun w => w = []) ws -> interleaving ws []
| il_step : forall ws1 a w ws2 t,
    interleaving (ws1 ++ w :: ws2) t -> interleaving (ws1 ++ (a :: w) :: ws2) (a :: t).
