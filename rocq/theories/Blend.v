(* Model of the blending functions: csrc/blending/sigmoid_alpha_blend_cpu.cpp (and the .cu kernels,
   which do the same work per pixel / per slot), renderer/blending.py. Exact reals; one pixel is the
   list of its K slots (pix_to_face, dists). *)
From Verif Require Import Base RBase.
Local Open Scope R_scope.

Definition bslot : Type := Z * R.                                  (* (face, signed distance) *)
(* sigmoid_alpha_blend_cpu.cpp:46-49: dist = -1.0 * d; 1. / (1. + exp(-dist / sigma)) *)
Definition sig_prob (sigma d : R) : R := let dist := -1 * d in 1 / (1 + exp (- dist / sigma)).
(* SigmoidAlphaBlendForwardCpu, sigmoid_alpha_blend_cpu.cpp:34-58 *)
Definition sab_trans (sigma : R) (row : list bslot) : R :=
  fold_left (fun alpha x => if (fst x <? 0)%Z then alpha else alpha * (1 - sig_prob sigma (snd x))) row 1.
Definition sab_fwd (sigma : R) (row : list bslot) : R := 1 - sab_trans sigma row.
(* SigmoidAlphaBlendBackwardCpu, sigmoid_alpha_blend_cpu.cpp:89-127: slots without a face keep the
   initial zero; alphas are the saved outputs of the forward pass *)
Definition sab_bwd (sigma grad_alpha alphas : R) (row : list bslot) : list R :=
  let alpha := 1 - alphas in
  map (fun x => if (fst x <? 0)%Z then 0 else grad_alpha * (-1 / sigma) * sig_prob sigma (snd x) * alpha) row.

(* renderer/blending.py:47-85 hard_rgb_blend, one pixel: colours of the K slots, first face index *)
Definition hard_blend (faces : list Z) (colors : list (list R)) (bg : list R) : result (list R) :=
  match faces, colors with
  | f :: _, c :: _ => Ok ((if (f <? 0)%Z then bg else c) ++ [if (f <? 0)%Z then 0 else 1])
  | _, _ => Fail EIndex
  end.

(* renderer/blending.py:144-244 softmax_rgb_blend, one pixel and one colour channel.
   A slot is (face, dist, zbuf, colour). *)
Record sslot := SSlot { s_face : Z; s_dist : R; s_z : R; s_col : R }.
Definition sm_eps : R := / 10 ^ 10.                                 (* blending.py:184 *)
Definition s_mask (s : sslot) : R := if (0 <=? s_face s)%Z then 1 else 0.
Definition s_prob (sigma : R) (s : sslot) : R := 1 / (1 + exp (- (- s_dist s / sigma))) * s_mask s.   (* 190 *)
Definition s_zinv (znear zfar : R) (s : sslot) : R := (zfar - s_z s) / (zfar - znear) * s_mask s.      (* 212 *)
(* torch.max over K, then clamp(min=eps), 214 *)
Definition zinv_max (znear zfar : R) (row : list sslot) : result R :=
  match row with
  | [] => Fail EIndex
  | s :: row' => Ok (Rmax (fold_left (fun m x => Rmax m (s_zinv znear zfar x)) row' (s_zinv znear zfar s)) sm_eps)
  end.
Definition s_weight (sigma gamma znear zfar zm : R) (s : sslot) : R :=
  s_prob sigma s * exp ((s_zinv znear zfar s - zm) / gamma).                                           (* 216 *)
Definition sm_delta (gamma zm : R) : R := Rmax (exp ((sm_eps - zm) / gamma)) sm_eps.                   (* 221 *)
Definition softmax_blend (sigma gamma znear zfar bg : R) (row : list sslot) : result (R * R) :=
  zm <- zinv_max znear zfar row ;;
  let w := map (s_weight sigma gamma znear zfar zm) row in
  let delta := sm_delta gamma zm in
  let denom := rsum w + delta in
  let weighted := rsum (map (fun s => s_weight sigma gamma znear zfar zm s * s_col s) row) in
  let alpha := rprod (map (fun s => 1 - s_prob sigma s) row) in
  Ok ((weighted + delta * bg) / denom, 1 - alpha).
