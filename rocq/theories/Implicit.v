(* Model of the volumetric rendering helpers: renderer/implicit/raymarching.py, sample_pdf.py and its CPU
   kernel, harmonic_embedding.py, raysampling.py (depths and stratified jitter), common/linear_with_repeat.py,
   implicitron/models/renderer/raymarcher.py. One ray at a time, exact reals; the batch dimensions are
   independent in the code. *)
From Verif Require Import Base RBase.
Local Open Scope R_scope.

(* torch.cumsum / torch.cumprod along a ray *)
Fixpoint rscan (op : R -> R -> R) (acc : R) (l : list R) : list R :=
  match l with [] => [] | x :: r => let a := op acc x in a :: rscan op a r end.
(* x[..., :k] for a Python integer k *)
Definition py_to {A} (k : Z) (l : list A) : list A :=
  firstn (Z.to_nat (if (k <? 0)%Z then Z.of_nat (length l) + k else k)) l.
(* elementwise product of two 1D tensors with broadcasting *)
Definition bmul (a b : list R) : result (list R) :=
  if (length a =? length b)%nat then Ok (map (fun p => fst p * snd p) (combine a b))
  else match a, b with
       | [x], _ => Ok (map (fun y => x * y) b)
       | _, [y] => Ok (map (fun x => x * y) a)
       | _, _ => Fail ERuntime
       end.

(* ---- renderer/implicit/raymarching.py *)
(* _shifted_cumprod, 175-185 *)
Definition shifted_cumprod (shift : Z) (x : list R) : list R :=
  let cp := rscan Rmult 1 x in
  map (fun _ => 1) (py_to shift cp) ++ py_to (- shift) cp.
(* EmissionAbsorptionRaymarcher.forward, 63-116, one ray and one feature channel; the density bound
   check only warns. Returns (weights, feature, opacity). *)
Definition ea_raymarch (thick : Z) (eps : R) (dens feats : list R) : result (list R * R * R) :=
  if negb (length feats =? length dens)%nat then Fail EValue
  else let absorption := shifted_cumprod thick (map (fun d => 1 + eps - d) dens) in
       weights <- bmul dens absorption ;;
       wf <- bmul weights feats ;;
       Ok (weights, rsum wf, 1 - rprod (map (fun d => 1 - d) dens)).
(* AbsorptionOnlyRaymarcher.forward, 143-172 *)
Definition ao_raymarch (dens : list R) : R := let total := rprod (map (fun d => 1 - d) dens) in 1 - total.

(* ---- implicitron/models/renderer/raymarcher.py *)
Inductive cap_fn := CapExp | CapOne.
Definition cap (c : cap_fn) (x : R) : R := match c with CapExp => 1 - exp (- x) | CapOne => Rmin x 1 end.  (* 104-107 *)
Inductive weight_fn := WProduct | WMinimum.
Definition wfun (w : weight_fn) (c a : R) : R := match w with WProduct => c * a | WMinimum => Rmin c a end. (* 109-112 *)
(* torch.diff *)
Fixpoint rdiff (l : list R) : list R :=
  match l with a :: ((b :: _) as r) => (b - a) :: rdiff r | _ => [] end.
(* 157-168 *)
Definition acc_deltas (replicate_last : bool) (bg_op : R) (lengths : list R) : list R :=
  let d := rdiff lengths in
  d ++ (if replicate_last then match rev d with [] => [] | x :: _ => [x] end
        else map (fun _ => bg_op) (firstn 1 lengths)).
Definition roll {A} (k : nat) (l : list A) : list A :=
  match length l with O => [] | S _ => let j := (length l - k mod length l)%nat in skipn j l ++ firstn j l end.
Definition set_first (s : nat) (v : R) (l : list R) : list R := map (fun _ => v) (firstn s l) ++ skipn s l.
Definition zipw (w : weight_fn) (a b : list R) : list R := map (fun p => wfun w (fst p) (snd p)) (combine a b).
(* AccumulativeRaymarcherBase.forward, 115-222, one ray, one channel, no density noise. Returns
   (weights, feature, depth, opacity). A mismatch of the ray tensors is an error. *)
Definition acc_raymarch (c : cap_fn) (w : weight_fn) (thick : nat) (replicate_last : bool) (bg_op : R)
    (relu blend : bool) (bg : R) (dens feats lengths : list R) : result (list R * R * R * R) :=
  if negb ((length feats =? length dens) && (length lengths =? length dens))%nat then Fail EValue
  else
    let deltas := acc_deltas replicate_last bg_op lengths in
    let dens := if relu then map (fun d => Rmax d 0) dens else dens in
    wd <- bmul deltas dens ;;
    let capped := map (cap c) wd in
    let ops := map (cap c) (rscan Rplus 0 wd) in
    match rev ops with
    | [] => Fail ERuntime
    | opacity :: _ =>
        let absorption := set_first thick 1 (roll thick (map (fun o => - o + 1) ops)) in
        let weights := zipw w capped absorption in
        wf <- bmul weights feats ;;
        wl <- bmul weights lengths ;;
        let alpha := if blend then opacity else 1 in
        Ok (weights, alpha * rsum wf + (1 - opacity) * bg, rsum wl, opacity)
    end.

(* ---- csrc/sample_pdf/sample_pdf_cpu.cpp *)
(* std::lower_bound (libstdc++ __lower_bound): the loop over [first, first+len) *)
Fixpoint lower_bound_loop (fuel : nat) (xs : list R) (first len : nat) (v : R) : nat :=
  match fuel with
  | O => first
  | S fuel =>
      match len with
      | O => first
      | _ => let half := (len / 2)%nat in
             let mid := (first + half)%nat in
             match nth_error xs mid with
             | Some x => if Rltb x v then lower_bound_loop fuel xs (mid + 1) (len - half - 1) v
                         else lower_bound_loop fuel xs first half v
             | None => first
             end
      end
  end.
Definition lower_bound (xs : list R) (n : nat) (v : R) : nat := lower_bound_loop (S n) xs 0 n v.
(* 83-97: interpolation inside the chosen bin *)
Definition pdf_finish (eps uniform bin_start bin_end bin_weight : R) : R :=
  if Rltb bin_weight uniform then bin_end
  else if Rltb eps bin_weight then bin_start + (uniform / bin_weight) * (bin_end - bin_start)
  else bin_start.
(* SamplePdfCpu_worker, 23-98, one quantile of one batch element, binary search branch *)
Definition sample_pdf_one (eps : R) (bins weights : list R) (u : R) : result R :=
  let ps := rscan Rplus 0 weights in
  match rev ps with
  | [] => Fail EOutOfBounds                        (* --partial_sums.end() of an empty vector *)
  | total :: _ =>
      let uniform := (total + eps) * u in
      let i := lower_bound ps (length ps - 1) uniform in
      uniform <- (if (0 <? i)%nat then p <- rget ps (i - 1) ;; Ok (uniform - p) else Ok uniform) ;;
      b0 <- rget bins i ;;
      b1 <- rget bins (i + 1) ;;
      w <- rget weights i ;;
      Ok (pdf_finish eps uniform b0 b1 w)
  end.
(* the #else branch, 75-79: linear scan *)
Fixpoint pdf_scan (eps : R) (bins weights : list R) (uniform : R) : result R :=
  match weights, bins with
  | w :: ((_ :: _) as ws), b0 :: ((b1 :: _) as bs) =>
      if Rltb w uniform then pdf_scan eps bs ws (uniform - w) else Ok (pdf_finish eps uniform b0 b1 w)
  | [w], b0 :: b1 :: _ => Ok (pdf_finish eps uniform b0 b1 w)
  | _, _ => Fail EOutOfBounds
  end.
(* renderer/implicit/sample_pdf.py:15-66: checks, then one sample per quantile (us are the random draws,
   or linspace when det) *)
Definition rmin_list (l : list R) : result R :=
  match l with [] => Fail ERuntime | x :: r => Ok (fold_left Rmin r x) end.
Definition sample_pdf (eps : R) (bins weights us : list R) : result (list R) :=
  m <- rmin_list weights ;;
  if Rleb m (- eps) then Fail EValue
  else if negb (length weights + 1 =? length bins)%nat then Fail EValue
  else rmap (sample_pdf_one eps bins weights) us.
(* torch.linspace *)
Definition linspace (a b : R) (n : nat) : list R :=
  map (fun i => a + INR i * ((b - a) / INR (n - 1))) (seq 0 n).
Definition sample_pdf_det (eps : R) (bins weights : list R) (n : nat) : result (list R) :=
  sample_pdf eps bins weights (linspace 0 1 n).
(* sample_pdf_python, sample_pdf.py:69-143, one quantile *)
Definition sample_pdf_python (eps : R) (bins weights : list R) (u : R) : result R :=
  let weights := map (fun w => w + eps) weights in
  m <- rmin_list weights ;;
  if Rleb m 0 then Fail EValue
  else
    let total := rsum weights in
    let cdf := 0 :: rscan Rplus 0 (map (fun w => w / total) weights) in
    let inds := count_if (fun c => Rleb c u) cdf in          (* searchsorted(right=True) on a sorted cdf *)
    let below := (inds - 1)%nat in
    let above := Nat.min inds (length cdf - 1) in
    c0 <- rget cdf below ;; c1 <- rget cdf above ;;
    b0 <- rget bins below ;; b1 <- rget bins above ;;
    let denom := c1 - c0 in
    let denom := if Rltb denom eps then 1 else denom in
    let t := (u - c0) / denom in
    Ok (b0 + t * (b1 - b0)).

(* ---- renderer/implicit/raysampling.py *)
(* _jiggle_within_stratas, 695-720; rs are the uniform random numbers *)
Definition jiggle (centers rs : list R) : list R :=
  let mids := map (fun p => / 2 * (fst p + snd p)) (combine (tl centers) (removelast centers)) in
  let upper := mids ++ match rev centers with [] => [] | x :: _ => [x] end in
  let lower := firstn 1 centers ++ mids in
  map (fun p => let '(l, u, r) := p in l + (u - l) * r) (combine (combine lower upper) rs).
(* _xy_to_ray_bundle, 640-653: depths of the points of a ray *)
Definition ray_depths (min_depth max_depth : R) (n : nat) (jitter : option (list R)) : list R :=
  let d := linspace min_depth max_depth n in
  match jitter with None => d | Some rs => jiggle d rs end.

(* ---- renderer/implicit/harmonic_embedding.py *)
Definition harmonic_freqs (n : nat) (omega0 : R) (logspace : bool) : list R :=     (* 103-118 *)
  map (fun f => f * omega0)
    (if logspace then map (fun k => 2 ^ k) (seq 0 n) else linspace 1 (2 ^ n / 2) n).
(* forward, 125-162: one point x (dim entries), optional diagonal covariance *)
Definition harmonic (freqs : list R) (append_input : bool) (x : list R) (cov : option (list R)) : list R :=
  let emb := flat_map (fun ph => flat_map (fun xi => map (fun f => sin (xi * f + ph)) freqs) x) [0; PI / 2] in
  let emb := match cov with
             | None => emb
             | Some c =>
                 let e := flat_map (fun v => map (fun f => exp (- / 2 * (v * (f * f)))) freqs) c in
                 map (fun p => fst p * snd p) (combine emb (e ++ e))
             end in
  if append_input then emb ++ x else emb.
Definition harmonic_output_dim (dims n : nat) (append_input : bool) : nat :=        (* 164-182 *)
  dims * (2 * n + (if append_input then 1 else 0)).

(* ---- common/linear_with_repeat.py *)
(* torch.nn.functional.linear on one vector: weight is (columns, rows), all rows have `columns` entries *)
Definition matrix : Type := nat * list (list R).
Definition dot (a b : list R) : R := rsum (map (fun p => fst p * snd p) (combine a b)).
Definition f_linear (x : list R) (W : matrix) (b : option (list R)) : result (list R) :=
  if negb (length x =? fst W)%nat then Fail ERuntime
  else let y := map (dot x) (snd W) in
       match b with
       | None => Ok y
       | Some b => if (length b =? length y)%nat then Ok (map (fun p => fst p + snd p) (combine y b)) else Fail ERuntime
       end.
Definition cols_to (k : nat) (W : matrix) : matrix := (Nat.min k (fst W), map (firstn k) (snd W)).   (* weight[:, :n1] *)
Definition cols_from (k : nat) (W : matrix) : matrix := (fst W - k, map (skipn k) (snd W))%nat.     (* weight[:, n1:] *)
(* forward, 86-90: xs are the k positions of a ray, y the per-ray vector *)
Definition linear_with_repeat (W : matrix) (b : option (list R)) (n1 : nat) (xs : list (list R)) (y : list R)
  : result (list (list R)) :=
  o1 <- rmap (fun x => f_linear x (cols_to n1 W) b) xs ;;
  o2 <- f_linear y (cols_from n1 W) None ;;
  Ok (map (fun o => map (fun p => fst p + snd p) (combine o o2)) o1).
