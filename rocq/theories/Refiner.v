(* Model of RayPointRefiner and of the passes of MultiPassEmissionAbsorptionRenderer:
   /repo/pytorch3d/implicitron/models/renderer/ray_point_refiner.py and multipass_ea.py.
   One ray at a time, exact reals. *)
From Coq Require Import Reals List.
From Verif Require Import Base RBase Geom Implicit Frustum.
Import ListNotations.
Local Open Scope R_scope.

(* torch.sort of one row *)
Fixpoint put (x : R) (l : list R) : list R :=
  match l with [] => [x] | y :: r => if Rleb x y then x :: l else y :: put x r end.
Definition tsort (l : list R) : list R := fold_right put [] l.

(* apply_blurpool_on_weights, ray_point_refiner.py:117-146: padding with the edge values, maximum of
   neighbours (max_pool1d refuses an input without entries), average of neighbours *)
Definition blurpool (w : list R) : result (list R) :=
  match w with
  | [] => Fail ERuntime
  | first :: _ =>
      let pad := first :: w ++ [last w 0] in
      let top := map (fun p => Rmax (fst p) (snd p)) (bin_pairs pad) in
      Ok (map (fun p => lerp_half (fst p) (snd p)) (bin_pairs top))
  end.

(* The settings of RayPointRefiner, ray_point_refiner.py:45-51 *)
Record refiner := Refiner { n_pts : nat; random_sampling : bool; add_input : bool; blur : bool; pdf_eps : R }.
(* x[..., 1:-1] *)
Definition inner_entries (l : list R) : list R := removelast (tl l).
(* RayPointRefiner.forward, ray_point_refiner.py:53-114.  draws stands for torch.rand; the
   arguments blurpool_weights and sample_pdf_padding of the call are accepted and not used. *)
Definition refine (c : refiner) (draws : nat -> R) (b : bundle) (weights : list R)
    (blurpool_weights : bool) (sample_pdf_padding : R) : result bundle :=
  weights <- (if blur c then blurpool weights else Ok weights) ;;
  let quantiles n := if random_sampling c then map draws (seq 0 n) else linspace 0 1 n in
  match b_bins b with
  | None =>
      match b_own b with
      | None => Fail EType
      | Some z =>
          samples <- sample_pdf (pdf_eps c) (map (fun p => lerp_half (snd p) (fst p)) (bin_pairs z))
                       (inner_entries weights) (quantiles (n_pts c)) ;;
          set_lengths b (tsort (if add_input c then z ++ samples else samples))
      end
  | Some z =>
      samples <- sample_pdf (pdf_eps c) z weights (quantiles (n_pts c + 1)%nat) ;;
      Ok (Bundle (b_origin b) (b_direction b) (b_own b)
            (Some (tsort (if add_input c then z ++ samples else samples))) (b_radius b))
  end.

(* MultiPassEmissionAbsorptionRenderer._run_raymarcher, multipass_ea.py:150-186.  march evaluates
   an implicit function along a bundle and marches along the ray; its weights feed the refiner.
   The result lists what every pass saw and rendered, first pass first; the code returns the last
   one, linked to the earlier ones by prev_stage. *)
Section passes.
Context {F O : Type} (march : F -> bundle -> result (O * list R)).
Fixpoint run_passes (c : refiner) (draws : nat -> nat -> R) (k : nat) (b : bundle) (f : F) (more : list F)
    : result (list (bundle * O)) :=
  out <- march f b ;;
  match more with
  | [] => Ok [(b, fst out)]
  | g :: rest =>
      fine <- refine c (draws k) b (snd out) false (1 / 100000) ;;
      r <- run_passes c draws (S k) fine g rest ;;
      Ok ((b, fst out) :: r)
  end.
(* forward, multipass_ea.py:117-148 *)
Definition multipass (c : refiner) (draws : nat -> nat -> R) (b : bundle) (fs : list F) : result (list (bundle * O)) :=
  match fs with
  | [] => Fail EValue
  | f :: more => run_passes c draws 0 b f more
  end.
End passes.
