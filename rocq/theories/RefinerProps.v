(* C86: refining the points of a ray. *)
From Coq Require Import Reals List Permutation Lra Lia Bool.
From Verif Require Import Base RBase Geom Implicit ImplicitSpec ImplicitProofs2 Frustum Refiner RefinerSpec RefinerProofs RefinerProofs2.
Import ListNotations.
Local Open Scope R_scope.

(* Refining never fails on sorted depths with nonnegative weights.  The new depths are sorted;
   they are the old ones and n_pts_per_ray more (one more for bins), or just the new ones, and the
   new ones lie between the first and last old depth.  The rest of the ray is kept. *)
Theorem refiner_refines c draws b w ba pa :
  0 < pdf_eps c -> (forall k, 0 <= draws k) -> refinable b -> nonneg w -> length w = points b ->
  exists b' samples, refine c draws b w ba pa = Ok b' /\ same_ray b b' /\
    length samples = extra c b /\ nondecreasing (depths b') /\
    Permutation (depths b') (if add_input c then depths b ++ samples else samples) /\
    all_in (nth 0 (depths b) 0) (last (depths b) 0) samples.
Proof.
  intros A B C D E. destruct (refine_main c draws b w ba pa A B C D E) as (b' & s & H1 & H2 & H3 & H4 & H5 & H6 & _).
  exists b', s. repeat split; try assumption; try apply H2; apply H6; assumption.
Qed.
Print Assumptions refiner_refines.
(* Without bins the new depths even keep half a step from the ends. *)
Theorem refiner_inside c draws b w ba pa b' : add_input c = false -> uses_bins b = false ->
  0 < pdf_eps c -> (forall k, 0 <= draws k) -> refinable b -> nonneg w -> length w = points b ->
  refine c draws b w ba pa = Ok b' ->
  let z := depths b in let n := length z in
  all_in ((nth 0 z 0 + nth 1 z 0) / 2) ((nth (n - 2) z 0 + nth (n - 1) z 0) / 2) (depths b').
Proof.
  intros AI U A B C D E R. cbv zeta.
  destruct (refine_main c draws b w ba pa A B C D E) as (b'' & s & H1 & _ & _ & _ & H5 & _ & H7).
  rewrite R in H1. injection H1 as <-. rewrite AI in H5. specialize (H7 U).
  destruct C as [_ L]. rewrite U in L.
  rewrite last_nth, mids_length, !mids_nth in H7 by lia.
  replace (length (depths b) - 1 - 1)%nat with (length (depths b) - 2)%nat in H7 by lia.
  replace (S (length (depths b) - 2)) with (length (depths b) - 1)%nat in H7 by lia.
  intros x X. apply H7. exact (Permutation_in _ H5 X).
Qed.
Print Assumptions refiner_inside.
(* With the old points kept, the ray starts and ends where it did. *)
Theorem refiner_keeps_ends c draws b w ba pa b' : add_input c = true ->
  0 < pdf_eps c -> (forall k, 0 <= draws k) -> refinable b -> nonneg w -> length w = points b ->
  refine c draws b w ba pa = Ok b' ->
  nth 0 (depths b') 0 = nth 0 (depths b) 0 /\ last (depths b') 0 = last (depths b) 0.
Proof.
  intros AI A B C D E R.
  destruct (refine_main c draws b w ba pa A B C D E) as (b'' & s & H1 & _ & _ & H4 & H5 & H6 & _).
  rewrite R in H1. injection H1 as <-. rewrite AI in H5.
  apply (ends_kept (depths b) (depths b') s); try assumption; [apply C|].
  destruct C as [_ L]. intros Z. rewrite Z in L. cbn in L. destruct (uses_bins b); lia.
Qed.
Print Assumptions refiner_keeps_ends.
Example refinable_case :
  let b := Bundle (V3 0 0 0) (V3 0 0 1) (Some [1; 2; 3; 5]) None None in
  refinable b /\ nonneg [0; 1; 1; 0] /\ length [0; 1; 1; 0] = points b.
Proof.
  cbv zeta. split; [|split; [intros x [<-|[<-|[<-|[<-|[]]]]]; lra|reflexivity]].
  split; [|cbn; lia]. intros i j I J. cbn in J.
  destruct i as [|[|[|[|i]]]], j as [|[|[|[|j]]]]; try lia; cbn; lra.
Qed.

(* The blurred weights are an envelope of the weights, no larger than their neighbourhood. *)
Theorem blurpool_envelope w v : blurpool w = Ok v -> length v = length w /\
  forall k, (k < length w)%nat ->
    nth k w 0 <= nth k v 0 <=
      Rmax (nth (k - 1) w 0) (Rmax (nth k w 0) (nth (Nat.min (k + 1) (length w - 1)) w 0)).
Proof.
  intros E. destruct (blur_spec w v E) as [L S]. split; [exact L|]. intros k K. rewrite (S k K).
  set (a := nth (k - 1) w 0). set (x := nth k w 0). set (z := nth (Nat.min (k + 1) (length w - 1)) w 0).
  pose proof (Rmax_r a x). pose proof (Rmax_l x z).
  assert (Rmax a x <= Rmax a (Rmax x z)) by (apply Rmax_lub; [apply Rmax_l|eapply Rle_trans; [exact H0|apply Rmax_r]]).
  assert (Rmax x z <= Rmax a (Rmax x z)) by apply Rmax_r. lra.
Qed.
Print Assumptions blurpool_envelope.
(* It is the average of the two maxima with the neighbours. *)
Theorem blurpool_value w : w <> [] -> exists v, blurpool w = Ok v /\
  forall k, (k < length w)%nat -> nth k v 0 =
    (Rmax (nth (k - 1) w 0) (nth k w 0) + Rmax (nth k w 0) (nth (Nat.min (k + 1) (length w - 1)) w 0)) / 2.
Proof.
  intros N. destruct (blur_total w N) as [v V]. exists v. split; [exact V|]. exact (proj2 (blur_spec w v V)).
Qed.
Print Assumptions blurpool_value.

(* The argument blurpool_weights of the call does not blur the weights; only the setting does. *)
Theorem refiner_blur_argument_refuted :
  ~ (forall c draws b w pa, refine c draws b w true pa =
       refine (Refiner (n_pts c) (random_sampling c) (add_input c) true (pdf_eps c)) draws b w true pa).
Proof.
  intros A.
  specialize (A (Refiner 0 true false false 1) (fun _ => 1 / 8)
    (Bundle (V3 0 0 0) (V3 0 0 1) None (Some [0; 1; 2; 3]) None) [0; 0; 1] 0).
  assert (P : sample_pdf 1 [0; 1; 2; 3] [0; 0; 1] [1 / 8] = Ok [2]).
  { rewrite sample_pdf_eq; [|intros x [<-|[<-|[<-|[]]]]; lra|lra|discriminate|reflexivity].
    replace (rsum [0; 0; 1]) with 1 by (cbn; lra). cbn [rmap pdf_scan].
    destruct (Rltb_spec 0 ((1 + 1) * (1 / 8))); [|lra].
    destruct (Rltb_spec 0 ((1 + 1) * (1 / 8) - 0)); [|lra]. unfold pdf_finish.
    destruct (Rltb_spec 1 ((1 + 1) * (1 / 8) - 0 - 0)); [lra|].
    destruct (Rltb_spec 1 1); [lra|]. reflexivity. }
  assert (Q : sample_pdf 1 [0; 1; 2; 3] [0; 1 / 2; 1] [1 / 8] = Ok [1]).
  { rewrite sample_pdf_eq; [|intros x [<-|[<-|[<-|[]]]]; lra|lra|discriminate|reflexivity].
    replace (rsum [0; 1 / 2; 1]) with (3 / 2) by (cbn; lra). cbn [rmap pdf_scan].
    destruct (Rltb_spec 0 ((3 / 2 + 1) * (1 / 8))); [|lra].
    destruct (Rltb_spec (1 / 2) ((3 / 2 + 1) * (1 / 8) - 0)); [lra|]. unfold pdf_finish.
    destruct (Rltb_spec (1 / 2) ((3 / 2 + 1) * (1 / 8) - 0)); [lra|].
    destruct (Rltb_spec 1 (1 / 2)); [lra|]. reflexivity. }
  assert (B : blurpool [0; 0; 1] = Ok [0; 1 / 2; 1]).
  { unfold blurpool, bin_pairs, lerp_half. cbn [removelast last app tl combine map fst snd].
    rewrite (Rmax_left 0 0), (Rmax_right 0 1), (Rmax_left 1 1) by lra. f_equal. f_equal; [lra|]. f_equal; [lra|]. f_equal. lra. }
  unfold refine in A. cbn [blur b_bins n_pts random_sampling pdf_eps add_input Nat.add seq map] in A.
  rewrite B in A. cbn [rbind] in A. rewrite P, Q in A. cbn in A.
  apply (f_equal (fun r => match r with Ok b => nth 0 (depths b) 0 | Fail _ => 0 end)) in A. cbn in A. lra.
Qed.
Print Assumptions refiner_blur_argument_refuted.

(* Any number of passes: every pass sees sorted depths of the same ray within the first ones,
   evaluates its own function there, and keeps all depths of the first pass if asked to, with
   n_pts_per_ray more (one more for bins) after every pass. *)
Theorem multipass_refines {F O} (march : F -> bundle -> result (O * list R)) c draws b fs :
  0 < pdf_eps c -> (forall k i, 0 <= draws k i) ->
  (forall f b, refinable b -> exists o w, march f b = Ok (o, w) /\ nonneg w /\ length w = points b) ->
  add_input c = true \/ (3 <= n_pts c)%nat -> refinable b -> fs <> [] ->
  exists rs, multipass march c draws b fs = Ok rs /\ length rs = length fs /\
  forall i bi oi, nth_error rs i = Some (bi, oi) ->
    (exists g w, nth_error fs i = Some g /\ march g bi = Ok (oi, w)) /\
    same_ray b bi /\ refinable bi /\ all_in (nth 0 (depths b) 0) (last (depths b) 0) (depths bi) /\
    (i = 0%nat -> bi = b) /\
    (add_input c = true -> incl (depths b) (depths bi) /\ length (depths bi) = (length (depths b) + i * extra c b)%nat) /\
    (add_input c = false -> (1 <= i)%nat -> length (depths bi) = extra c b).
Proof.
  intros A B C D E N. destruct fs as [|f more]; [contradiction|].
  exact (passes_main march c draws A B C D more f 0%nat b E).
Qed.
Print Assumptions multipass_refines.
Example marching_case : forall (f : nat) b, refinable b ->
  exists o w, (fun (f : nat) b => Ok (f, repeat 1 (points b))) f b = Ok (o, w) /\ nonneg w /\ length w = points b.
Proof.
  intros f b _. exists f, (repeat 1 (points b)). split; [reflexivity|]. split; [|apply repeat_length].
  intros x X. apply repeat_spec in X. lra.
Qed.
(* Without functions there is nothing to render. *)
Theorem multipass_empty {F O} (march : F -> bundle -> result (O * list R)) c draws b fs :
  fs = [] -> multipass march c draws b fs = Fail EValue.
Proof. intros ->. reflexivity. Qed.
Print Assumptions multipass_empty.
