(* Model of point compositing: csrc/compositing/alpha_composite_cpu.cpp, norm_weighted_sum_cpu.cpp,
   weighted_sum_cpu.cpp and their .cu counterparts. Scalars are exact reals.
   One pixel is the row of its K (point index, alpha) slots; p is the flattened (batch, y, x) pixel.
   The feature lookup is a function: an index beyond the feature table is outside the model. *)
From Verif Require Import Base RBase.
Local Open Scope R_scope.

(* the rows handed to the kernels: points_idx and alphas of shape (B, K, H, W) *)
Definition slot : Type := Z * R.
Definition row_of (K : nat) (idx : nat -> nat -> Z) (al : nat -> nat -> R) (p : nat) : list slot :=
  map (fun k => (idx p k, al p k)) (seq 0 K).

(* gradient cells: grad_features[c][n] and grad_alphas[p][k] *)
Inductive cell := GF (c n : nat) | GA (p k : nat).
Definition cell_eqb (x y : cell) : bool :=
  match x, y with
  | GF a b, GF c d => ((a =? c) && (b =? d))%nat
  | GA a b, GA c d => ((a =? c) && (b =? d))%nat
  | _, _ => false
  end.
(* "cell += value" executed in the given order on zero-initialised gradients
   (torch::zeros_like; += on CPU, atomicAdd on CUDA) *)
Definition run (ws : list (cell * R)) : cell -> R :=
  fold_left (fun g w => fun x => if cell_eqb x (fst w) then g x + snd w else g x) ws (fun _ => 0).

(* csrc/compositing/alpha_composite_cpu.cpp:15 *)
Definition ac_eps : R := / 10 ^ 9.
(* csrc/compositing/alpha_composite_cpu.cpp:44-57 (one pixel, one channel) *)
Definition ac_step (f : nat -> R) (s : R * R) (x : slot) : R * R :=
  let '(n, a) := x in
  let '(res, cum) := s in
  if (n <? 0)%Z then (res, cum) else (res + cum * a * f (Z.to_nat n), cum * (1 - a)).
Definition ac_fwd (f : nat -> R) (row : list slot) : R := fst (fold_left (ac_step f) row (0, 1)).
(* csrc/compositing/alpha_composite_cpu.cpp:88-121 and alpha_composite.cu:98-141: the additions made
   for pixel p and channel c, in program order. [nearer] are the valid slots t < k. *)
Fixpoint ac_writes (eps : R) (p c : nat) (go : R) (f : nat -> R) (row : list slot) (k : nat) (cum : R)
    (nearer : list (nat * R)) : list (cell * R) :=
  match row with
  | [] => []
  | (n, a) :: row' =>
      if (n <? 0)%Z then ac_writes eps p c go f row' (S k) cum nearer
      else (GA p k, go * f (Z.to_nat n) * cum) :: (GF c (Z.to_nat n), go * cum * a)
           :: map (fun ta => (GA p (fst ta), - (go * f (Z.to_nat n) * cum * a / (1 - snd ta + eps)))) nearer
           ++ ac_writes eps p c go f row' (S k) (cum * (1 - a)) (nearer ++ [(k, a)])
  end.

(* csrc/compositing/norm_weighted_sum_cpu.cpp:15 *)
Definition nw_eps : R := / 10 ^ 4.
(* norm_weighted_sum_cpu.cpp:41-54 *)
Definition nw_total (row : list slot) : R :=
  let t := fold_left (fun t x => if (fst x <? 0)%Z then t else t + snd x) row 0 in
  if Rltb t nw_eps then nw_eps else t.
(* norm_weighted_sum_cpu.cpp:56-66 *)
Definition nw_fwd (f : nat -> R) (row : list slot) : R :=
  let t := nw_total row in
  fold_left (fun r x => if (fst x <? 0)%Z then r else r + snd x * f (Z.to_nat (fst x)) / t) row 0.
(* norm_weighted_sum_cpu.cpp:103-113 *)
Definition nw_alphafs (f : nat -> R) (row : list slot) : R :=
  fold_left (fun t x => if (fst x <? 0)%Z then t else t + snd x * f (Z.to_nat (fst x))) row 0.
(* norm_weighted_sum_cpu.cpp:119-135, norm_weighted_sum.cu:110-153 *)
Fixpoint nw_writes (p c : nat) (go : R) (f : nat -> R) (t fs : R) (row : list slot) (k : nat) : list (cell * R) :=
  match row with
  | [] => []
  | (n, a) :: row' =>
      if (n <? 0)%Z then nw_writes p c go f t fs row' (S k)
      else (GA p k, go * (f (Z.to_nat n) * t - fs) / (t * t)) :: (GF c (Z.to_nat n), go * a / t)
           :: nw_writes p c go f t fs row' (S k)
  end.

(* csrc/compositing/weighted_sum_cpu.cpp:38-49 *)
Definition ws_fwd (f : nat -> R) (row : list slot) : R :=
  fold_left (fun r x => if (fst x <? 0)%Z then r else r + snd x * f (Z.to_nat (fst x))) row 0.
(* csrc/compositing/weighted_sum_cpu.cpp:88-101, weighted_sum.cu:92-112 *)
Fixpoint ws_writes (p c : nat) (go : R) (f : nat -> R) (row : list slot) (k : nat) : list (cell * R) :=
  match row with
  | [] => []
  | (n, a) :: row' =>
      if (n <? 0)%Z then ws_writes p c go f row' (S k)
      else (GA p k, go * f (Z.to_nat n)) :: (GF c (Z.to_nat n), go * a) :: ws_writes p c go f row' (S k)
  end.

(* the additions of a whole backward call: B images of S pixels, C channels, in the CPU loop order
   "for b, for c, for (j, i)" (alpha_composite_cpu.cpp:79-87) *)
Definition cpu_pairs (B C S : nat) : list (nat * nat) :=
  flat_map (fun b => flat_map (fun c => map (fun s => ((b * S + s)%nat, c)) (seq 0 S)) (seq 0 C)) (seq 0 B).
Section Backward.
  Variables (K : nat) (idx : nat -> nat -> Z) (al : nat -> nat -> R) (feat : nat -> nat -> R) (go : nat -> nat -> R).
  (* alphaCompositeCpuBackward, alpha_composite_cpu.cpp:60-128 *)
  Definition ac_pair (pc : nat * nat) : list (cell * R) :=
    ac_writes ac_eps (fst pc) (snd pc) (go (fst pc) (snd pc)) (feat (snd pc)) (row_of K idx al (fst pc)) 0 1 [].
  (* weightedSumNormCpuBackward, norm_weighted_sum_cpu.cpp:72-141 *)
  Definition nw_pair (pc : nat * nat) : list (cell * R) :=
    let row := row_of K idx al (fst pc) in
    nw_writes (fst pc) (snd pc) (go (fst pc) (snd pc)) (feat (snd pc)) (nw_total row) (nw_alphafs (feat (snd pc)) row) row 0.
  (* weightedSumCpuBackward, weighted_sum_cpu.cpp:57-107 *)
  Definition ws_pair (pc : nat * nat) : list (cell * R) :=
    ws_writes (fst pc) (snd pc) (go (fst pc) (snd pc)) (feat (snd pc)) (row_of K idx al (fst pc)) 0.
  Definition cpu_backward (pair : nat * nat -> list (cell * R)) (B C S : nat) : cell -> R :=
    run (flat_map pair (cpu_pairs B C S)).
End Backward.

(* renderer/points/compositor.py:70-117 _add_background_color_to_images, one pixel: the colour
   replaces the features where the first slot is empty; errors for a channel mismatch *)
Definition bg_color (C : nat) (bg : list R) : result (list R) :=
  let bg := if (length bg + 1 =? C)%nat then bg ++ [1] else bg in
  if (C =? length bg)%nat then Ok bg else Fail EValue.
Definition bg_pixel (row : list slot) (img bg : list R) : result (list R) :=
  col <- bg_color (length img) bg ;;
  match row with
  | [] => Fail EIndex
  | (n, _) :: _ => Ok (if (n <? 0)%Z then col else img)
  end.
