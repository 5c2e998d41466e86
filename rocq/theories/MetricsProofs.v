From Coq Require Import Reals Arith Lra Lia Bool List.
From Verif Require Import Base RBase Metrics MetricsSpec.
Import ListNotations.
Local Open Scope R_scope.

Section Sums.
Context {I : Type}.
Lemma lsum_nil (f : I -> R) : lsum [] f = 0.
Proof. reflexivity. Qed.
Lemma lsum_cons a l (f : I -> R) : lsum (a :: l) f = f a + lsum l f.
Proof. change (rsum ([f a] ++ map f l) = f a + lsum l f). rewrite rsum_app. unfold lsum. cbn. lra. Qed.
Lemma lsum_ext l (f g : I -> R) : (forall p, In p l -> f p = g p) -> lsum l f = lsum l g.
Proof.
  induction l as [|a l IH]; intros E; [reflexivity|]. rewrite !lsum_cons, IH, (E a (or_introl eq_refl)); [reflexivity|].
  intros p P. apply E. right. exact P.
Qed.
Lemma lsum_le l (f g : I -> R) : (forall p, In p l -> f p <= g p) -> lsum l f <= lsum l g.
Proof.
  induction l as [|a l IH]; intros E; [apply Rle_refl|]. rewrite !lsum_cons.
  apply Rplus_le_compat; [apply E; left; reflexivity|]. apply IH. intros p P. apply E. right. exact P.
Qed.
Lemma lsum_zero l (f : I -> R) : (forall p, In p l -> f p = 0) -> lsum l f = 0.
Proof.
  induction l as [|a l IH]; intros E; [reflexivity|]. rewrite lsum_cons, IH, (E a (or_introl eq_refl)); [lra|].
  intros p P. apply E. right. exact P.
Qed.
Lemma lsum_nonneg l (f : I -> R) : (forall p, In p l -> 0 <= f p) -> 0 <= lsum l f.
Proof.
  intros E. rewrite <- (lsum_zero l (fun _ => 0)) by reflexivity. apply lsum_le, E.
Qed.
Lemma lsum_scal l k (f : I -> R) : lsum l (fun p => k * f p) = k * lsum l f.
Proof. induction l as [|a l IH]; [cbn; lra|]. rewrite !lsum_cons, IH. ring. Qed.
Lemma lsum_plus l (f g : I -> R) : lsum l (fun p => f p + g p) = lsum l f + lsum l g.
Proof. induction l as [|a l IH]; [cbn; lra|]. rewrite !lsum_cons, IH. ring. Qed.
Lemma lsum_const l k : lsum l (fun _ : I => k) = INR (length l) * k.
Proof.
  induction l as [|a l IH]; [cbn; lra|]. rewrite lsum_cons, IH.
  change (length (a :: l)) with (S (length l)). rewrite S_INR. ring.
Qed.
Lemma lsum_pos l (f : I -> R) a : In a l -> (forall p, In p l -> 0 <= f p) -> 0 < f a -> 0 < lsum l f.
Proof.
  induction l as [|b l IH]; intros A N P; [contradiction|]. rewrite lsum_cons.
  assert (0 <= f b) by (apply N; left; reflexivity).
  assert (0 <= lsum l f) by (apply lsum_nonneg; intros; apply N; right; assumption).
  destruct A as [-> | A]; [lra|].
  assert (0 < lsum l f) by (apply IH; [exact A | intros; apply N; right; assumption | exact P]). lra.
Qed.
Lemma lsum_zero_inv l (f : I -> R) : (forall p, In p l -> 0 <= f p) -> lsum l f = 0 ->
  forall p, In p l -> f p = 0.
Proof.
  intros N Z p P. destruct (Rle_lt_or_eq_dec 0 (f p) (N p P)) as [L|L]; [|symmetry; exact L].
  pose proof (lsum_pos l f p P N L). lra.
Qed.
Lemma lsum_square l (g q m : I -> R) s :
  lsum l (fun p => m p * (g p - q p * s) ^ 2) =
  lsum l (fun p => m p * g p ^ 2) - 2 * s * lsum l (fun p => q p * g p * m p)
  + s ^ 2 * lsum l (fun p => q p * q p * m p).
Proof. induction l as [|a l IH]; [cbn; lra|]. rewrite !lsum_cons, IH. ring. Qed.
End Sums.

Lemma mean_pos_nonempty {I} (l : list I) f : 0 < mean l f -> 0 < INR (length l).
Proof.
  unfold mean. destruct l as [|a l]; [cbn; unfold Rdiv; rewrite Rmult_0_l; lra|].
  intros _. apply lt_0_INR. cbn. lia.
Qed.

Lemma above_cases b x : (above b x = 1 /\ b < x) \/ (above b x = 0 /\ x <= b).
Proof. unfold above. destruct (Rltb_spec b x); [left|right]; split; lra. Qed.
Lemma above_nonneg b x : 0 <= above b x.
Proof. destruct (above_cases b x) as [[-> _]|[-> _]]; lra. Qed.

(* The ground truth after masking, and the pixels that count. *)
Definition masked (gt : nat * nat -> R) (mask : option (nat * nat -> R)) (thr : R) : nat * nat -> R :=
  match mask with Some m => fun p => gt p * above thr (m p) | None => gt end.

Lemma masked_valid gt mask thr p : valid gt mask thr p -> masked gt mask thr p = gt p /\ 0 < masked gt mask thr p.
Proof.
  intros [G M]. unfold masked. destruct mask as [m|]; [|split; [reflexivity|exact G]].
  destruct (above_cases thr (m p)) as [[-> _]|[_ L]]; [|lra]. split; lra.
Qed.
Lemma masked_invalid gt mask thr p : ~ valid gt mask thr p -> masked gt mask thr p <= 0.
Proof.
  intros V. unfold masked, valid in *. destruct mask as [m|].
  - destruct (above_cases thr (m p)) as [[-> L]|[-> _]]; [|lra].
    destruct (Rle_or_lt (gt p) 0); [lra|]. exfalso. apply V. split; assumption.
  - destruct (Rle_or_lt (gt p) 0); [lra|]. exfalso. apply V. split; [assumption|exact Logic.I].
Qed.
Lemma valid_dec gt mask thr p : valid gt mask thr p \/ ~ valid gt mask thr p.
Proof.
  unfold valid. destruct (Rlt_dec 0 (gt p)); [|right; tauto].
  destruct mask as [m|]; [|left; tauto]. destruct (Rlt_dec thr (m p)); [left|right]; tauto.
Qed.
Lemma dmask_valid gt mask thr p : valid gt mask thr p -> above 0 (masked gt mask thr p) = 1.
Proof.
  intros V. destruct (masked_valid _ _ _ _ V) as [_ P].
  destruct (above_cases 0 (masked gt mask thr p)) as [[E _]|[_ L]]; [exact E|lra].
Qed.
Lemma dmask_invalid gt mask thr p : ~ valid gt mask thr p -> above 0 (masked gt mask thr p) = 0.
Proof.
  intros V. pose proof (masked_invalid _ _ _ _ V).
  destruct (above_cases 0 (masked gt mask thr p)) as [[_ L]|[E _]]; [lra|exact E].
Qed.

Lemma window_in crop H W p : In p (window crop H W) <-> inner crop H W p.
Proof.
  unfold window, inner. destruct p as [i j]. rewrite in_prod_iff, !in_seq. cbn [fst snd]. lia.
Qed.

Definition dm gt mask thr := fun p => above 0 (masked gt mask thr p).
Definition mass gt mask thr ix := Rmax (lsum ix (dm gt mask thr)) (1 / 10000).
Definition err2 gt mask thr (ix : list (nat * nat)) (q : nat * nat -> R) :=
  lsum ix (fun p => dm gt mask thr p * (masked gt mask thr p - q p) ^ 2) / mass gt mask thr ix.
Definition err1 gt mask thr (ix : list (nat * nat)) (q : nat * nat -> R) :=
  lsum ix (fun p => dm gt mask thr p * Rabs (masked gt mask thr p - q p)) / mass gt mask thr ix.

Lemma mass_pos gt mask thr ix : 0 < mass gt mask thr ix.
Proof. unfold mass. pose proof (Rmax_r (lsum ix (dm gt mask thr)) (1 / 10000)). lra. Qed.

Lemma eval_depth_plain pred gt crop H W mask thr cl eps :
  eval_depth pred gt crop H W mask false thr cl false eps =
  Some (err2 gt mask thr (window crop H W) pred, err1 gt mask thr (window crop H W) pred).
Proof. reflexivity. Qed.
Definition best pred gt mask thr cl ix := scale_factor ix pred (masked gt mask thr) (dm gt mask thr) cl.
Lemma eval_depth_scaled pred gt crop H W mask thr cl eps :
  eval_depth pred gt crop H W mask true thr cl false eps =
  Some (err2 gt mask thr (window crop H W) (fun p => pred p * best pred gt mask thr cl (window crop H W)),
        err1 gt mask thr (window crop H W) (fun p => pred p * best pred gt mask thr cl (window crop H W))).
Proof. reflexivity. Qed.

Lemma energy_is pred gt mask thr crop H W :
  energy pred gt mask thr crop H W =
  mean (window crop H W) (fun p => pred p * pred p * dm gt mask thr p).
Proof.
  unfold energy, mean. f_equal. apply lsum_ext. intros p _. unfold dm.
  destruct (valid_dec gt mask thr p) as [V|V].
  - rewrite (dmask_valid _ _ _ _ V). destruct V as [G M].
    destruct (Rltb_spec 0 (gt p)); [|lra]. cbn [andb]. destruct mask as [m|]; [|ring].
    destruct (Rltb_spec thr (m p)); [ring|lra].
  - rewrite (dmask_invalid _ _ _ _ V). destruct (Rltb_spec 0 (gt p)) as [G|G]; cbn [andb]; [|ring].
    destruct mask as [m|]; [|exfalso; apply V; split; [exact G|exact Logic.I]].
    destruct (Rltb_spec thr (m p)) as [M|M]; [exfalso; apply V; split; assumption|ring].
Qed.

Section Best.
Variables (pred gt : nat * nat -> R) (mask : option (nat * nat -> R)) (thr cl : R) (crop H W : nat).
Hypothesis Hcl : 0 < cl.
Hypothesis Henergy : cl <= energy pred gt mask thr crop H W.
Let ix := window crop H W.
Let A := lsum ix (fun p => pred p * pred p * dm gt mask thr p).
Let B := lsum ix (fun p => pred p * masked gt mask thr p * dm gt mask thr p).

Lemma len_pos : 0 < INR (length ix).
Proof. apply (mean_pos_nonempty ix (fun p => pred p * pred p * dm gt mask thr p)). pose proof Henergy as EN. rewrite energy_is in EN. fold ix in EN. lra. Qed.
Lemma A_pos : 0 < A.
Proof.
  pose proof Henergy as EN. rewrite energy_is in EN. fold ix in EN. unfold mean in EN. fold A in EN.
  pose proof len_pos. assert (0 < A / INR (length ix)) by lra.
  replace A with (A / INR (length ix) * INR (length ix)) by (field; lra). apply Rmult_lt_0_compat; assumption.
Qed.
Lemma best_is : best pred gt mask thr cl ix = B / A.
Proof.
  unfold best, scale_factor. pose proof Henergy as EN. rewrite energy_is in EN. fold ix in EN.
  rewrite Rmax_left by exact EN. unfold mean. fold A B. pose proof len_pos. pose proof A_pos.
  field. split; lra.
Qed.

Lemma best_scale_wins s : err2 gt mask thr ix (fun p => pred p * best pred gt mask thr cl ix) <=
                          err2 gt mask thr ix (fun p => pred p * s).
Proof.
  unfold err2. pose proof (mass_pos gt mask thr ix) as M.
  apply Rmult_le_compat_r; [left; apply Rinv_0_lt_compat, M|].
  rewrite !lsum_square. fold A B. rewrite best_is. pose proof A_pos as P.
  set (G := lsum ix (fun p => dm gt mask thr p * masked gt mask thr p ^ 2)).
  assert (E : G - 2 * s * B + s ^ 2 * A - (G - 2 * (B / A) * B + (B / A) ^ 2 * A) = A * (s - B / A) ^ 2)
    by (field; lra).
  assert (0 <= A * (s - B / A) ^ 2) by (apply Rmult_le_pos; [lra|apply pow2_ge_0]). lra.
Qed.
End Best.

Lemma scaled_energy pred gt mask thr crop H W k :
  energy (fun p => pred p * k) gt mask thr crop H W = k ^ 2 * energy pred gt mask thr crop H W.
Proof.
  rewrite !energy_is. unfold mean.
  rewrite (lsum_ext _ _ (fun p => k ^ 2 * (pred p * pred p * dm gt mask thr p))) by (intros; ring).
  rewrite lsum_scal. unfold Rdiv. ring.
Qed.

Lemma scale_invariant pred gt mask thr cl crop H W k : 0 < cl -> k <> 0 ->
  cl <= energy pred gt mask thr crop H W -> cl <= energy (fun p => pred p * k) gt mask thr crop H W ->
  forall p, (pred p * k) * best (fun p => pred p * k) gt mask thr cl (window crop H W) =
            pred p * best pred gt mask thr cl (window crop H W).
Proof.
  intros C K E E' p. rewrite (best_is _ _ _ _ _ _ _ _ C E), (best_is _ _ _ _ _ _ _ _ C E').
  rewrite (lsum_ext _ (fun p => pred p * k * masked gt mask thr p * dm gt mask thr p)
    (fun p => k * (pred p * masked gt mask thr p * dm gt mask thr p))) by (intros; ring).
  rewrite (lsum_ext _ (fun p => pred p * k * (pred p * k) * dm gt mask thr p)
    (fun p => k ^ 2 * (pred p * pred p * dm gt mask thr p))) by (intros; ring).
  rewrite !lsum_scal. pose proof (A_pos _ _ _ _ _ _ _ _ C E). field. split; lra.
Qed.

Lemma err_ext gt mask thr ix q q' : (forall p, In p ix -> valid gt mask thr p -> q p = q' p) ->
  err2 gt mask thr ix q = err2 gt mask thr ix q' /\ err1 gt mask thr ix q = err1 gt mask thr ix q'.
Proof.
  intros E. unfold err2, err1, dm. split; f_equal; apply lsum_ext; intros p P;
    (destruct (valid_dec gt mask thr p) as [V|V];
     [rewrite (E p P V); reflexivity | rewrite (dmask_invalid _ _ _ _ V); ring]).
Qed.

Lemma eval_scale_invariant pred gt mask thr cl crop H W eps k : 0 < cl -> k <> 0 ->
  cl <= energy pred gt mask thr crop H W -> cl <= energy (fun p => pred p * k) gt mask thr crop H W ->
  eval_depth (fun p => pred p * k) gt crop H W mask true thr cl false eps =
  eval_depth pred gt crop H W mask true thr cl false eps.
Proof.
  intros C K E E'. rewrite !eval_depth_scaled.
  destruct (err_ext gt mask thr (window crop H W)
    (fun p => pred p * k * best (fun p0 => pred p0 * k) gt mask thr cl (window crop H W))
    (fun p => pred p * best pred gt mask thr cl (window crop H W))) as [X Y].
  - intros p _ _. apply scale_invariant; assumption.
  - rewrite X, Y. reflexivity.
Qed.

(* Pixels that do not count have no influence. *)
Section Invalid.
Variables (pred pred' gt gt' : nat * nat -> R) (mask mask' : option (nat * nat -> R)) (thr cl : R) (crop H W : nat).
Hypothesis Hv : forall p, inner crop H W p -> (valid gt mask thr p <-> valid gt' mask' thr p).
Hypothesis He : forall p, inner crop H W p -> valid gt mask thr p -> pred p = pred' p /\ gt p = gt' p.
Let ix := window crop H W.

Lemma same_dm p : In p ix -> dm gt mask thr p = dm gt' mask' thr p.
Proof.
  intros P. apply window_in in P. unfold dm. destruct (valid_dec gt mask thr p) as [V|V].
  - rewrite (dmask_valid _ _ _ _ V), (dmask_valid gt'); [reflexivity|]. apply Hv; assumption.
  - rewrite (dmask_invalid _ _ _ _ V), (dmask_invalid gt'); [reflexivity|].
    intros V'. apply V. apply Hv; assumption.
Qed.
Lemma same_masked p : In p ix -> valid gt mask thr p -> masked gt mask thr p = masked gt' mask' thr p.
Proof.
  intros P V. apply window_in in P. destruct (masked_valid _ _ _ _ V) as [-> _].
  destruct (masked_valid gt' mask' thr p) as [-> _]; [apply Hv; assumption|]. apply He; assumption.
Qed.
Lemma same_term (f : R -> R -> R) p q q' : In p ix -> (valid gt mask thr p -> q = q') ->
  f (masked gt mask thr p) q * dm gt mask thr p = f (masked gt' mask' thr p) q' * dm gt' mask' thr p.
Proof.
  intros P Q. rewrite <- (same_dm p P). destruct (valid_dec gt mask thr p) as [V|V].
  - rewrite <- (same_masked p P V), (Q V). reflexivity.
  - unfold dm. rewrite (dmask_invalid _ _ _ _ V). ring.
Qed.
Lemma same_pred p : In p ix -> valid gt mask thr p -> pred p = pred' p.
Proof. intros P V. apply window_in in P. apply He; assumption. Qed.
Lemma same_mass : mass gt mask thr ix = mass gt' mask' thr ix.
Proof. unfold mass. f_equal. apply lsum_ext. intros p P. apply same_dm, P. Qed.
Lemma same_scale (g g' q q' : nat * nat -> R) :
  (forall p, In p ix -> valid gt mask thr p -> g p = g' p /\ q p = q' p) ->
  scale_factor ix q g (dm gt mask thr) cl = scale_factor ix q' g' (dm gt' mask' thr) cl.
Proof.
  intros E. unfold scale_factor, mean.
  rewrite (lsum_ext ix (fun p => q p * g p * dm gt mask thr p) (fun p => q' p * g' p * dm gt' mask' thr p)).
  2:{ intros p P. rewrite <- (same_dm p P). destruct (valid_dec gt mask thr p) as [V|V].
      - destruct (E p P V) as [-> ->]. reflexivity.
      - unfold dm. rewrite (dmask_invalid _ _ _ _ V). ring. }
  rewrite (lsum_ext ix (fun p => q p * q p * dm gt mask thr p) (fun p => q' p * q' p * dm gt' mask' thr p)).
  2:{ intros p P. rewrite <- (same_dm p P). destruct (valid_dec gt mask thr p) as [V|V].
      - destruct (E p P V) as [_ ->]. reflexivity.
      - unfold dm. rewrite (dmask_invalid _ _ _ _ V). ring. }
  reflexivity.
Qed.
Lemma same_err (g g' q q' : nat * nat -> R) (f : R -> R) :
  (forall p, In p ix -> valid gt mask thr p -> g p = g' p /\ q p = q' p) ->
  lsum ix (fun p => dm gt mask thr p * f (g p - q p)) = lsum ix (fun p => dm gt' mask' thr p * f (g' p - q' p)).
Proof.
  intros E. apply lsum_ext. intros p P. rewrite <- (same_dm p P). destruct (valid_dec gt mask thr p) as [V|V].
  - destruct (E p P V) as [-> ->]. reflexivity.
  - unfold dm. rewrite (dmask_invalid _ _ _ _ V). ring.
Qed.
End Invalid.

Definition adjusted (pred gt : nat * nat -> R) mask thr cl ix (bs : bool) : nat * nat -> R :=
  if bs then fun p => pred p * best pred gt mask thr cl ix else pred.

Lemma disparity_ok {I} (ix : list I) eps x y : disparity ix eps x = Some y -> forall p, y p = 1 / (x p + eps).
Proof. unfold disparity. destruct (existsb _ ix); [discriminate|]. intros E. injection E as <-. reflexivity. Qed.

Lemma eval_depth_invalid pred pred' gt gt' mask mask' thr cl crop H W bs dp eps r r' :
  (forall p, inner crop H W p -> (valid gt mask thr p <-> valid gt' mask' thr p)) ->
  (forall p, inner crop H W p -> valid gt mask thr p -> pred p = pred' p /\ gt p = gt' p) ->
  eval_depth pred gt crop H W mask bs thr cl dp eps = Some r ->
  eval_depth pred' gt' crop H W mask' bs thr cl dp eps = Some r' -> r = r'.
Proof.
  intros Hv He E E'. unfold eval_depth in E, E'.
  change (match mask with Some m => fun p => gt p * above thr (m p) | None => gt end) with (masked gt mask thr) in E.
  change (match mask' with Some m => fun p => gt' p * above thr (m p) | None => gt' end) with (masked gt' mask' thr) in E'.
  cbv zeta in E, E'. change (fun p => above 0 (masked gt mask thr p)) with (dm gt mask thr) in E.
  change (fun p => above 0 (masked gt' mask' thr p)) with (dm gt' mask' thr) in E'.
  set (ix := window crop H W) in *.
  change (Rmax (lsum ix (dm gt mask thr)) (1 / 10000)) with (mass gt mask thr ix) in E.
  change (Rmax (lsum ix (dm gt' mask' thr)) (1 / 10000)) with (mass gt' mask' thr ix) in E'.
  pose proof (same_mass gt gt' mask mask' thr crop H W Hv) as SMA. fold ix in SMA. rewrite <- SMA in E'.
  change (if bs then fun p => pred p * scale_factor ix pred (masked gt mask thr) (dm gt mask thr) cl else pred)
    with (adjusted pred gt mask thr cl ix bs) in E.
  change (if bs then fun p => pred' p * scale_factor ix pred' (masked gt' mask' thr) (dm gt' mask' thr) cl else pred')
    with (adjusted pred' gt' mask' thr cl ix bs) in E'.
  assert (S : forall p, In p ix -> valid gt mask thr p ->
    masked gt mask thr p = masked gt' mask' thr p /\
    adjusted pred gt mask thr cl ix bs p = adjusted pred' gt' mask' thr cl ix bs p).
  { intros p P V. pose proof (same_masked pred pred' gt gt' mask mask' thr crop H W Hv He) as SM.
    split; [apply SM; assumption|]. unfold adjusted. destruct bs.
    - rewrite (same_pred pred pred' gt gt' mask thr crop H W He p P V). f_equal. unfold best, ix.
      apply (same_scale gt gt' mask mask' thr cl crop H W Hv).
      intros q Q U. split; [apply SM; assumption|].
      apply (same_pred pred pred' gt gt' mask thr crop H W He q Q U).
    - apply (same_pred pred pred' gt gt' mask thr crop H W He p P V). }
  destruct dp.
  - destruct (disparity ix eps (masked gt mask thr)) as [g|] eqn:D1; [|discriminate].
    destruct (disparity ix eps (adjusted pred gt mask thr cl ix bs)) as [q|] eqn:D2; [|discriminate].
    destruct (disparity ix eps (masked gt' mask' thr)) as [g'|] eqn:D1'; [|discriminate].
    destruct (disparity ix eps (adjusted pred' gt' mask' thr cl ix bs)) as [q'|] eqn:D2'; [|discriminate].
    injection E as <-. injection E' as <-.
    assert (T : forall p, In p ix -> valid gt mask thr p -> g p = g' p /\ q p = q' p).
    { intros p P V. rewrite (disparity_ok _ _ _ _ D1), (disparity_ok _ _ _ _ D2),
        (disparity_ok _ _ _ _ D1'), (disparity_ok _ _ _ _ D2').
      destruct (S p P V) as [-> ->]. split; reflexivity. }
    assert (U : forall p, In p ix -> valid gt mask thr p -> g p = g' p /\
      q p * scale_factor ix q g (dm gt mask thr) cl = q' p * scale_factor ix q' g' (dm gt' mask' thr) cl).
    { intros p P V. destruct (T p P V) as [G Q]. split; [exact G|].
      pose proof (same_scale gt gt' mask mask' thr cl crop H W Hv g g' q q' T) as SS. fold ix in SS.
      rewrite SS, Q. reflexivity. }
    f_equal; f_equal.
    + exact (same_err gt gt' mask mask' thr crop H W Hv g g' _ _ (fun x => x ^ 2) U).
    + exact (same_err gt gt' mask mask' thr crop H W Hv g g' _ _ Rabs U).
  - injection E as <-. injection E' as <-. f_equal; f_equal.
    + exact (same_err gt gt' mask mask' thr crop H W Hv _ _ _ _ (fun x => x ^ 2) S).
    + exact (same_err gt gt' mask mask' thr crop H W Hv _ _ _ _ Rabs S).
Qed.

Lemma err_nonneg gt mask thr ix q : 0 <= err2 gt mask thr ix q /\ 0 <= err1 gt mask thr ix q.
Proof.
  pose proof (mass_pos gt mask thr ix) as M. unfold err2, err1, Rdiv.
  assert (0 <= / mass gt mask thr ix) by (left; apply Rinv_0_lt_compat, M).
  split; apply Rmult_le_pos; try assumption; apply lsum_nonneg; intros p _;
    apply Rmult_le_pos; try apply above_nonneg; [apply pow2_ge_0|apply Rabs_pos].
Qed.
Lemma err_zero gt mask thr ix q : err2 gt mask thr ix q = 0 <->
  (forall p, In p ix -> valid gt mask thr p -> q p = gt p).
Proof.
  pose proof (mass_pos gt mask thr ix) as M. split.
  - intros Z p P V. unfold err2, Rdiv in Z. apply Rmult_integral in Z.
    destruct Z as [Z|Z]; [|pose proof (Rinv_0_lt_compat _ M); lra].
    assert (T : dm gt mask thr p * (masked gt mask thr p - q p) ^ 2 = 0).
    { apply (lsum_zero_inv ix (fun p => dm gt mask thr p * (masked gt mask thr p - q p) ^ 2)); [|exact Z|exact P].
      intros r _. apply Rmult_le_pos; [apply above_nonneg|apply pow2_ge_0]. }
    unfold dm in T. rewrite (dmask_valid _ _ _ _ V), Rmult_1_l in T.
    destruct (masked_valid _ _ _ _ V) as [E _]. rewrite E in T.
    assert (gt p - q p = 0); [|lra].
    destruct (Req_dec (gt p - q p) 0) as [X|X]; [exact X|]. exfalso.
    apply (pow_nonzero _ 2 X). exact T.
  - intros E. unfold err2. rewrite (lsum_zero ix); [unfold Rdiv; ring|].
    intros p P. unfold dm. destruct (valid_dec gt mask thr p) as [V|V].
    + destruct (masked_valid _ _ _ _ V) as [-> _]. rewrite (E p P V). ring.
    + rewrite (dmask_invalid _ _ _ _ V). ring.
Qed.
Lemma err1_zero gt mask thr ix q : (forall p, In p ix -> valid gt mask thr p -> q p = gt p) ->
  err1 gt mask thr ix q = 0.
Proof.
  intros E. unfold err1. rewrite (lsum_zero ix); [unfold Rdiv; ring|].
  intros p P. unfold dm. destruct (valid_dec gt mask thr p) as [V|V].
  - destruct (masked_valid _ _ _ _ V) as [-> _]. rewrite (E p P V), Rminus_diag_eq, Rabs_R0 by reflexivity. ring.
  - rewrite (dmask_invalid _ _ _ _ V). ring.
Qed.
