(* Model of /repo/pytorch3d/implicitron/tools/metric_utils.py.  A tensor is a function on a
   list of positions; tensors that the code combines are assumed to have been broadcast to the
   same positions.  Numbers are reals; None stands for a result that is not a number. *)
From Coq Require Import Reals Arith Lra Lia Bool List.
From Verif Require Import Base RBase.
Import ListNotations.
Local Open Scope R_scope.

Definition lsum {I} (ix : list I) (f : I -> R) : R := rsum (map f ix).
(* Tensor.mean(), of a tensor with at least one entry. *)
Definition mean {I} (ix : list I) (f : I -> R) : R := lsum ix f / INR (length ix).
Definition above (b x : R) : R := if Rltb b x then 1 else 0.

(* estimate_depth_scale_factor of one image: metric_utils.py:89-93.  For an image without
   pixels the code divides by zero, but then the factor multiplies nothing. *)
Definition scale_factor {I} (ix : list I) (pred gt mask : I -> R) (thr : R) : R :=
  mean ix (fun p => pred p * gt p * mask p) / Rmax (mean ix (fun p => pred p * pred p * mask p)) thr.

(* gt[:, :, crop:-crop, crop:-crop]: metric_utils.py:52-59. *)
Definition window (crop H W : nat) : list (nat * nat) :=
  list_prod (seq crop (H - 2 * crop)) (seq crop (W - 2 * crop)).

(* 1.0 / (x + eps) everywhere, a division by zero spoils the sums: metric_utils.py:73-74. *)
Definition disparity {I} (ix : list I) (eps : R) (x : I -> R) : option (I -> R) :=
  if existsb (fun p => Reqb (x p + eps) 0) ix then None else Some (fun p => 1 / (x p + eps)).

(* eval_depth for one image of the batch: metric_utils.py:19-86. *)
Definition eval_depth (pred gt : nat * nat -> R) (crop H W : nat) (mask : option (nat * nat -> R))
    (best_scale : bool) (mask_thr clamp_thr : R) (use_disparity : bool) (disparity_eps : R)
  : option (R * R) :=
  let ix := window crop H W in
  let gt := match mask with Some m => fun p => gt p * above mask_thr (m p) | None => gt end in
  let dmask := fun p => above 0 (gt p) in
  let mass := Rmax (lsum ix dmask) (1 / 10000) in
  let pred := if best_scale then
      let s := scale_factor ix pred gt dmask clamp_thr in fun p => pred p * s
    else pred in
  match (if use_disparity then
           match disparity ix disparity_eps gt, disparity ix disparity_eps pred with
           | Some g, Some q => let s := scale_factor ix q g dmask clamp_thr in
                               Some (g, fun p => q p * s)
           | _, _ => None
           end
         else Some (gt, pred)) with
  | None => None
  | Some (gt, pred) =>
    Some (lsum ix (fun p => dmask p * (gt p - pred p) ^ 2) / mass,
          lsum ix (fun p => dmask p * Rabs (gt p - pred p)) / mass)
  end.

(* calc_mse: metric_utils.py:109-122. *)
Definition calc_mse {I} (ix : list I) (x y : I -> R) (mask : option (I -> R)) : option R :=
  match mask with
  | None => match ix with [] => None | _ => Some (mean ix (fun p => (x p - y p) ^ 2)) end
  | Some m => Some (lsum ix (fun p => (x p - y p) ^ 2 * m p) / Rmax (lsum ix m) (1 / 100000))
  end.

(* calc_psnr: metric_utils.py:96-106. *)
Definition log10 (x : R) : R := ln x / ln 10.
Definition calc_psnr {I} (ix : list I) (x y : I -> R) (mask : option (I -> R)) : option R :=
  match calc_mse ix x y mask with
  | None => None
  | Some mse => Some (log10 (Rmax mse (1 / 10 ^ 10)) * -10)
  end.

(* rgb_l1 for one image of C channels; the mask has one channel: metric_utils.py:198-209. *)
Definition rgb_l1 {I} (ix : list I) (C : nat) (pred target : I -> nat -> R) (mask : option (I -> R)) : R :=
  let m := match mask with Some m => m | None => fun _ => 1 end in
  lsum ix (fun p => sumf C (fun c => Rabs (pred p c - target p c) * m p)) / Rmax (lsum ix m) 1.

(* safe_sqrt and huber: metric_utils.py:212-219 and 234-238. *)
Definition safe_sqrt (a eps : R) : R := sqrt (Rmax a 0 + eps).
Definition huber (dfsq scaling : R) : R :=
  (safe_sqrt (1 + dfsq / (scaling * scaling)) (1 / 10000) - 1) * scaling.

(* iou and neg_iou_loss of N images: metric_utils.py:222-231 and 241-256. *)
Definition iou {I} (ix : list I) (N : nat) (predict target : nat -> I -> R)
    (mask : option (nat -> I -> R)) : option R :=
  let a := match mask with Some m => fun n p => predict n p * m n p | None => predict end in
  let b := match mask with Some m => fun n p => target n p * m n p | None => target end in
  let intersect n := lsum ix (fun p => a n p * b n p) in
  let union n := lsum ix (fun p => a n p + b n p - a n p * b n p) + 1 / 10000 in
  if Nat.eqb N 0 then None else Some (sumf N (fun n => intersect n / union n) / INR N).
Definition neg_iou_loss {I} (ix : list I) (N : nat) (predict target : nat -> I -> R)
    (mask : option (nat -> I -> R)) : option R :=
  match iou ix N predict target mask with None => None | Some v => Some (1 - v) end.

(* log_lerp, with its assertion: metric_utils.py:190-195. *)
Definition log_lerp (x b : R) : R := if Rleb b x then ln x else ln b + (x - b) / b.

(* binary_cross_entropy_lerp: metric_utils.py:174-187.  The failed assertion of log_lerp is
   the failure here. *)
Definition bce_lerp {I} (ix : list I) (pred gt weight : I -> R) (b : R) : result R :=
  if Rleb b 0 then Fail ERuntime else
  Ok (- lsum ix (fun p => (log_lerp (1 - pred p) b * (1 - gt p) + log_lerp (pred p) b * gt p) * weight p)
      / Rmax (lsum ix weight) (1 / 10000)).

(* The logarithm of F.binary_cross_entropy, which is at least -100, also at zero. *)
Definition log100 (x : R) : R := if Rleb x 0 then -100 else Rmax (ln x) (-100).
Definition bce_entry (p y : R) : R := - (y * log100 p + (1 - y) * log100 (1 - p)).
(* The entry of F.binary_cross_entropy_with_logits. *)
Definition bce_logit_entry (x y : R) : R := (1 - y) * x + ln (1 + exp (- x)).
Definition sigmoid (x : R) : R := 1 / (1 + exp (- x)).

(* The weights of calc_bce: metric_utils.py:141-152. *)
Definition bce_weight {I} (ix : list I) (gt : I -> R) (equal_w : bool) (mask : I -> R) : I -> R :=
  if equal_w then
    let fg p := above (1 / 2) (gt p) * mask p in
    let bg p := (1 - fg p) * mask p in
    let w p := fg p / Rmax (lsum ix fg) 1 + bg p / Rmax (lsum ix bg) 1 in
    fun p => w p * (INR (length ix) / Rmax (lsum ix w) 1)
  else fun p => 1 * mask p.

(* calc_bce: metric_utils.py:125-171.  F.binary_cross_entropy refuses predictions outside
   [0, 1]. *)
Definition calc_bce {I} (ix : list I) (pred gt : I -> R) (equal_w : bool) (pred_eps : R)
    (mask : option (I -> R)) (lerp_bound : option R) (pred_logits : bool) : result (option R) :=
  let pred := if Rltb 0 pred_eps then fun p => Rmin (Rmax (pred p) pred_eps) (1 - pred_eps) else pred in
  let mask := match mask with Some m => m | None => fun _ => 1 end in
  let weight := bce_weight ix gt equal_w mask in
  match lerp_bound with
  | Some b =>
    let pred := if pred_logits then fun p => sigmoid (pred p) else pred in
    v <- bce_lerp ix pred gt weight b ;; Ok (Some v)
  | None =>
    if negb pred_logits && existsb (fun p => Rltb (pred p) 0 || Rltb 1 (pred p)) ix then Fail ERuntime else
    let entry := if pred_logits then bce_logit_entry else bce_entry in
    Ok (match ix with
        | [] => None
        | _ => Some (mean ix (fun p => entry (pred p) (gt p) * weight p))
        end)
  end.

(* beta_prior: metric_utils.py:259-264; for predictions in [0, 1], where the logarithms exist. *)
Definition beta_prior {I} (ix : list I) (pred : I -> R) (cap : R) : result (option R) :=
  if Rleb cap 0 then Fail EValue else
  Ok (match ix with
      | [] => None
      | _ => Some (mean ix (fun p => ln (pred p + cap) + ln (1 - pred p + cap)) - (ln cap + ln (cap + 1)))
      end).
