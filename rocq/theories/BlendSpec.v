(* Specification for blending: the probabilities of the faces that overlap a pixel. *)
From Verif Require Import Base RBase Blend.
Local Open Scope R_scope.
(* logistic function of minus the signed distance over sigma: 1 deep inside a face, 0 far outside *)
Definition coverage (sigma d : R) : R := 1 / (1 + exp (d / sigma)).
Definition valid_dists (row : list bslot) : list R :=
  flat_map (fun x => if (fst x <? 0)%Z then [] else [snd x]) row.
(* replace the distance of slot k *)
Fixpoint set_dist (row : list bslot) (k : nat) (t : R) : list bslot :=
  match row, k with
  | [], _ => []
  | (f, _) :: row', O => (f, t) :: row'
  | s :: row', S k' => s :: set_dist row' k' t
  end.
