(* C15, C16: the work partition over threads. *)
From Verif Require Import Base Threads ThreadsProofs.
Local Open Scope Z_scope.

(* ---------------- C15: sample_pdf ---------------- *)

(* the workers' rows, put one after the other, are the rows 0 .. batch-1, each exactly once;
   true for every batch size and thread count but one combination *)
Theorem sample_pdf_partition : forall num_threads batch n_samples,
  1 <= num_threads -> 1 <= batch -> 0 <= n_samples -> ~ (batch = 5 /\ 4 <= num_threads) ->
  concat (map (pdf_worker_cells n_samples) (pdf_ranges num_threads batch))
  = map Z.of_nat (seq 0 (Z.to_nat (batch * n_samples))).
Proof.
  exact (fun nt b ns H1 H2 H3 H4 =>
           pdf_partition_gen nt b ns H1 H2 H3 (proj2 (pdf_fits_iff nt b H1 H2) H4)).
Qed.
Print Assumptions sample_pdf_partition.

(* whatever the interleaving of the threads, every sample cell of the in-place output is
   transformed exactly once, so the result is that of the sequential program *)
Theorem sample_pdf_schedule_independent :
  forall (A : Type) (f : Z -> A -> A) num_threads batch n_samples (mem : list A) trace,
  1 <= num_threads -> 0 <= batch -> 0 <= n_samples -> ~ (batch = 5 /\ 4 <= num_threads) ->
  Z.of_nat (length mem) = batch * n_samples ->
  interleaving (map (pdf_worker_cells n_samples) (pdf_ranges num_threads batch)) trace ->
  run_trace f trace mem = Ok (mapi_from 0 f mem).
Proof. exact @pdf_schedule. Qed.
Print Assumptions sample_pdf_schedule_independent.

(* five rays and at least four threads: every schedule writes behind the output tensor *)
Theorem sample_pdf_partition_refuted :
  forall (A : Type) (f : Z -> A -> A) num_threads n_samples (mem : list A) trace,
  4 <= num_threads -> 1 <= n_samples -> Z.of_nat (length mem) = 5 * n_samples ->
  interleaving (map (pdf_worker_cells n_samples) (pdf_ranges num_threads 5)) trace ->
  run_trace f trace mem = Fail EOutOfBounds.
Proof. exact @pdf_bad_schedule. Qed.
Print Assumptions sample_pdf_partition_refuted.

Example sample_pdf_bad_ranges : pdf_ranges 8 5 = [(0, 2); (2, 4); (4, 6); (6, 5)].
Proof. reflexivity. Qed.
Example sample_pdf_good_ranges : pdf_ranges 8 1024 = [(0, 256); (256, 512); (512, 768); (768, 1024)].
Proof. reflexivity. Qed.
Example sample_pdf_schedule_exists : forall num_threads batch n_samples,
  exists trace, interleaving (map (pdf_worker_cells n_samples) (pdf_ranges num_threads batch)) trace.
Proof. intros; eexists; apply interleaving_seq. Qed.

(* ---------------- C16: mesh rasterizer ---------------- *)

Theorem rasterizer_row_partition : forall num_threads H, 1 <= num_threads -> 0 <= H ->
  concat (map range_rows (raster_ranges num_threads H)) = map Z.of_nat (seq 0 (Z.to_nat H)).
Proof. exact raster_partition. Qed.
Print Assumptions rasterizer_row_partition.

Theorem rasterizer_schedule_independent :
  forall (A : Type) (f : Z -> A -> A) num_threads H (mem : list A) trace,
  1 <= num_threads -> Z.of_nat (length mem) = H ->
  interleaving (map range_rows (raster_ranges num_threads H)) trace ->
  run_trace f trace mem = Ok (mapi_from 0 f mem).
Proof. exact @raster_schedule. Qed.
Print Assumptions rasterizer_schedule_independent.

Example rasterizer_ranges_more_threads_than_rows :
  raster_ranges 4 3 = [(0, 1); (1, 2); (2, 3); (3, 3)].
Proof. reflexivity. Qed.
Example rasterizer_ranges_5_4 : raster_ranges 4 5 = [(0, 2); (2, 4); (4, 5); (6, 5)].
Proof. reflexivity. Qed.
