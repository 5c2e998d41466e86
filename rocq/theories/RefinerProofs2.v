From Coq Require Import Reals List Permutation Sorted Lra Lia Bool.
From Verif Require Import Base RBase Geom Implicit ImplicitSpec Frustum Refiner RefinerSpec RefinerProofs.
Import ListNotations.
Local Open Scope R_scope.

Lemma ends_kept (d d' s : list R) : nondecreasing d -> nondecreasing d' -> d <> [] -> Permutation d' (d ++ s) ->
  all_in (nth 0 d 0) (last d 0) s -> nth 0 d' 0 = nth 0 d 0 /\ last d' 0 = last d 0.
Proof.
  intros N N' E P A.
  assert (D : all_in (nth 0 d 0) (last d 0) d') by
    (intros x X; apply (Permutation_in _ P) in X; apply in_app_or in X; destruct X as [X|X]; [apply sorted_in; assumption|apply A, X]).
  assert (I : forall x, In x d -> In x d').
  { intros x X. apply (Permutation_in _ (Permutation_sym P)). apply in_or_app. left. exact X. }
  assert (L : (1 <= length d)%nat) by (destruct d; [contradiction|cbn; lia]).
  assert (L' : (1 <= length d')%nat) by (rewrite (Permutation_length P), app_length; lia).
  pose proof (sorted_in d' N') as S.
  split; apply Rle_antisym.
  - apply S, I, nth_In. lia.
  - apply D, nth_In. lia.
  - apply D. rewrite last_nth. apply nth_In. lia.
  - apply S, I. rewrite last_nth. apply nth_In. lia.
Qed.
Lemma points_pos b : refinable b -> (1 <= points b)%nat.
Proof. intros [_ L]. unfold points. destruct (uses_bins b); lia. Qed.

Section passes.
Context {F O : Type} (march : F -> bundle -> result (O * list R)).
Variables (c : refiner) (draws : nat -> nat -> R).
Hypotheses (He : 0 < pdf_eps c) (Hd : forall k i, 0 <= draws k i)
  (Hm : forall f b, refinable b -> exists o w, march f b = Ok (o, w) /\ nonneg w /\ length w = points b)
  (Hn : add_input c = true \/ (3 <= n_pts c)%nat).

Lemma same_trans a b d : same_ray a b -> same_ray b d -> same_ray a d.
Proof. unfold same_ray. intros (A & B & C & D) (A' & B' & C' & D'). repeat split; congruence. Qed.

Lemma passes_main : forall more f k b, refinable b ->
  exists rs, run_passes march c draws k b f more = Ok rs /\ length rs = S (length more) /\
  forall i bi oi, nth_error rs i = Some (bi, oi) ->
    (exists g w, nth_error (f :: more) i = Some g /\ march g bi = Ok (oi, w)) /\
    same_ray b bi /\ refinable bi /\ all_in (nth 0 (depths b) 0) (last (depths b) 0) (depths bi) /\
    (i = 0%nat -> bi = b) /\
    (add_input c = true -> incl (depths b) (depths bi) /\ length (depths bi) = (length (depths b) + i * extra c b)%nat) /\
    (add_input c = false -> (1 <= i)%nat -> length (depths bi) = extra c b).
Proof.
  induction more as [|g rest IH]; intros f k b Rb; cbn [run_passes]; destruct (Hm f b Rb) as (o & w & M & Wn & Wl);
    rewrite M; cbn [rbind fst snd].
  - exists [(b, o)]. split; [reflexivity|]. split; [reflexivity|].
    intros i bi oi E. destruct i as [|i]; [|destruct i; discriminate].
    injection E as <- <-. split; [exists f, w; split; [reflexivity|exact M]|].
    split; [repeat split|]. split; [exact Rb|]. split; [apply sorted_in, Rb|]. split; [reflexivity|].
    split; [intros _; split; [apply incl_refl|lia]|intros _ Z; lia].
  - destruct (refine_main c (draws k) b w false (1 / 100000) He (Hd k) Rb Wn Wl)
      as (b' & samples & Eb & SR & SL & ND & PM & RG & _).
    rewrite Eb. cbn [rbind].
    assert (Rb' : refinable b').
    { split; [exact ND|]. rewrite (Permutation_length PM). destruct SR as (_ & _ & _ & U). rewrite U.
      destruct Rb as [_ Lb]. destruct (add_input c) eqn:AI.
      - rewrite app_length. lia.
      - rewrite SL. unfold extra. destruct Hn as [Hn'|Hn']; [discriminate|]. destruct (uses_bins b); lia. }
    destruct (IH g (S k) b' Rb') as (rs & Er & Lr & Pr).
    rewrite Er. cbn [rbind]. eexists. split; [reflexivity|]. split; [cbn; lia|].
    assert (EX : extra c b' = extra c b) by (unfold extra; destruct SR as (_ & _ & _ & U); rewrite U; reflexivity).
    assert (DB : all_in (nth 0 (depths b) 0) (last (depths b) 0) (depths b')).
    { intros x X. apply (Permutation_in _ PM) in X. destruct (add_input c); [|apply RG, X].
      apply in_app_or in X. destruct X as [X|X]; [apply sorted_in; [apply Rb|exact X]|apply RG, X]. }
    intros i bi oi E. destruct i as [|i].
    + injection E as <- <-. split; [exists f, w; split; [reflexivity|exact M]|].
      split; [repeat split|]. split; [exact Rb|]. split; [apply sorted_in, Rb|]. split; [reflexivity|].
      split; [intros _; split; [apply incl_refl|lia]|intros _ Z; lia].
    + cbn [nth_error] in E. destruct (Pr i bi oi E) as (G & S1 & R1 & A1 & Z1 & I1 & N1).
      split; [destruct G as (h & wh & G1 & G2); exists h, wh; split; [exact G1|exact G2]|].
      split; [exact (same_trans b b' bi SR S1)|]. split; [exact R1|].
      assert (B0 : (1 <= length (depths b'))%nat) by (destruct Rb' as [_ Lb']; destruct (uses_bins b'); lia).
      split.
      { intros x X. specialize (A1 x X).
        assert (In (nth 0 (depths b') 0) (depths b')) as I0 by (apply nth_In; lia).
        assert (In (last (depths b') 0) (depths b')) as I2 by (rewrite last_nth; apply nth_In; lia).
        apply DB in I0. apply DB in I2. lra. }
      split; [discriminate|]. split.
      * intros AI. destruct (I1 AI) as [J1 J2]. rewrite AI in PM. split.
        -- intros x X. apply J1. apply (Permutation_in _ (Permutation_sym PM)). apply in_or_app. left. exact X.
        -- rewrite J2, EX, (Permutation_length PM), app_length, SL. lia.
      * intros AI _. destruct i as [|i].
        -- rewrite (Z1 eq_refl), (Permutation_length PM), AI. exact SL.
        -- rewrite (N1 AI ltac:(lia)). exact EX.
Qed.
End passes.
