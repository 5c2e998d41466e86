(* The samplers. *)
From Verif Require Import Base Packing PackingSpec PackingProofs PackOpsProofs.
From Verif Require Import RBase Geom GeomProofs LinAlg Transform TransformSpec Camera CameraSpec CameraProofs CameraProofs6 Implicit ImplicitSpec Rays RaysSpec RaysProofs RaysProofs2 RaysProofs3 RaysProofs4.
From Verif Require Meshes MeshesProofs5.
From Coq Require Import R_Ifp Sorted.
Local Open Scope R_scope.

Lemma bundle_good unit lo hi npts jitter cs xys B : good_cameras cs -> length xys = cs_n cs ->
  xy_to_ray_bundle unit lo hi npts jitter cs xys = Ok B ->
  map (map xy) B = xys /\ forall i row, nth_error B i = Some row -> Forall (ray_of unit cs i) row /\
    forall j ry, nth_error row j = Some ry -> lengths ry = ray_depths lo hi npts (option_map (fun f => f i j) jitter).
Proof.
  intros (W & HK & Hn & Hreg & HR & Hs) Hl H.
  destruct (bundle_defined unit lo hi npts jitter cs xys W HK Hn Hreg HR Hs Hl) as (B' & E1 & E2 & E3).
  rewrite H in E1. injection E1 as <-. split; [exact E2|]. intros i row Hrow. split.
  - apply Forall_forall. intros ry Hry. apply In_nth_error in Hry as (j & Hj).
    assert (Hd : (exists o, origin ry = Some o) /\ (exists d, direction ry = Some d)).
    { eapply Forall_forall in E3; [|eapply nth_error_In; exact Hrow]. eapply Forall_forall in E3; [exact E3|eapply nth_error_In; exact Hj]. }
    destruct Hd as ((o & Ho) & _).
    destruct (raw_ray _ _ _ _ _ _ _ _ _ _ _ _ _ W HK Hreg H Hrow Hj Ho) as (l & p & c & r & t & d & F1 & F2 & F3 & F4 & F5 & F6 & F7 & F8).
    exists o, d. split; [exact Ho|]. split; [exact F5|]. rewrite F3. exists c, r, t. auto.
  - intros j ry Hj. assert (Hd : exists o, origin ry = Some o).
    { eapply Forall_forall in E3; [|eapply nth_error_In; exact Hrow]. eapply Forall_forall in E3; [apply E3|eapply nth_error_In; exact Hj]. }
    destruct Hd as (o & Ho).
    destruct (raw_ray _ _ _ _ _ _ _ _ _ _ _ _ _ W HK Hreg H Hrow Hj Ho) as (l & p & c & r & t & d & F1 & F2 & F3 & F4 & F5 & F6 & F7 & F8). exact F6.
Qed.

(* ---- the default number of rays ---- *)
Lemma fold_min_le l : forall x, fold_left Rmin l x <= x /\ forall y, In y l -> fold_left Rmin l x <= y.
Proof.
  induction l as [|a l IH]; intros x; cbn [fold_left]; [split; [lra|intros y []]|].
  destruct (IH (Rmin x a)) as (H1 & H2). pose proof (Rmin_l x a). pose proof (Rmin_r x a). split; [lra|].
  intros y [<-|Hy]; [lra|apply H2; exact Hy].
Qed.
Lemma fold_min_in l : forall x, In (fold_left Rmin l x) (x :: l).
Proof.
  induction l as [|a l IH]; intros x; cbn [fold_left]; [left; reflexivity|].
  destruct (IH (Rmin x a)) as [H|H]; [|right; right; exact H]. rewrite <- H. unfold Rmin. destruct (Rle_dec x a); [left|right; left]; reflexivity.
Qed.
Lemma mask_rays_spec m n : mask_rays m = Ok n -> (forall w, In w m -> 0 <= rsum w) -> smallest_mask m n.
Proof.
  unfold mask_rays, rmin_list. destruct m as [|w0 m]; cbn [map]; [discriminate|]. cbn [rbind]. intros H Hp. injection H as <-.
  set (s := fold_left Rmin (map rsum m) (rsum w0)).
  destruct (fold_min_le (map rsum m) (rsum w0)) as (L1 & L2). fold s in L1, L2.
  pose proof (fold_min_in (map rsum m) (rsum w0)) as Hin. fold s in Hin.
  assert (Hs : exists w, In w (w0 :: m) /\ rsum w = s).
  { destruct Hin as [E|E]; [exists w0; split; [left; reflexivity|exact E]|]. apply in_map_iff in E as (w & E & Hw). exists w. split; [right; exact Hw|exact E]. }
  destruct Hs as (ws & Hws & Es). assert (P : 0 <= s) by (rewrite <- Es; apply Hp; exact Hws).
  destruct (base_Int_part s) as (B1 & B2).
  assert (Z0 : (0 <= Int_part s)%Z). { apply Z.lt_succ_r. apply lt_IZR. rewrite succ_IZR. lra. }
  assert (EI : INR (Z.to_nat (Int_part s)) = IZR (Int_part s)) by (rewrite INR_IZR_INZ, Z2Nat.id by exact Z0; reflexivity).
  unfold smallest_mask. rewrite EI. split.
  - intros w [<-|Hw]; [lra|]. assert (s <= rsum w) by (apply L2; apply in_map; exact Hw). lra.
  - exists ws. split; [exact Hws|]. rewrite Es. lra.
Qed.
Lemma rsum_positives w : Forall (fun x => 0 <= x <= 1) w -> rsum w <= INR (positives w).
Proof.
  induction 1 as [|x w Hx F IH]; [cbn; lra|]. rewrite RBase.rsum_cons. unfold positives in *. cbn [filter].
  destruct (Rltb_spec 0 x) as [P|P]; cbn [length]; [rewrite S_INR; lra|lra].
Qed.
Lemma rsum_pos w : Forall (fun x => 0 <= x <= 1) w -> 0 <= rsum w.
Proof. induction 1 as [|x w Hx F IH]; [cbn; lra|]. rewrite RBase.rsum_cons. lra. Qed.

(* ---- gathering ---- *)
Lemma gather_ok grid idx xs : rmap (fun i => match nth_error grid i with Some p => Ok p | None => Fail EIndex end) idx = Ok xs ->
  map (@nth_error (R * R) grid) idx = map Some xs.
Proof.
  revert xs. induction idx as [|i idx IH]; intros xs H; cbn [rmap] in H; [injection H as <-; reflexivity|].
  destruct (nth_error grid i) as [p|] eqn:E; cbn [rbind] in H; [|discriminate].
  match type of H with (rbind ?b _) = _ => destruct b as [o|]; cbn [rbind] in H; [|discriminate] end. injection H as <-.
  cbn [map]. rewrite E. f_equal. apply IH. reflexivity.
Qed.
Lemma gather_rows grid w n idx xs :
  Forall2 (fun row idx => length idx = n /\ Forall (fun i => (i < length row)%nat) idx /\
             Forall (fun i => 0 < nth i row 0) idx /\ ((n <= positives row)%nat -> NoDup idx)) w idx ->
  rmap (rmap (fun i => match nth_error grid i with Some p => Ok p | None => Fail EIndex end)) idx = Ok xs ->
  Forall2 (fun w x => drawn_from grid w n x) w xs.
Proof.
  intros F. revert xs. induction F as [|row i w idx J F IH]; intros xs H; cbn [rmap] in H; [injection H as <-; constructor|].
  match type of H with (rbind ?b _) = _ => destruct b as [x|] eqn:Ex; cbn [rbind] in H; [|discriminate] end.
  match type of H with (rbind ?b _) = _ => destruct b as [o|] eqn:Eo; cbn [rbind] in H; [|discriminate] end. injection H as <-.
  destruct J as (J1 & J2 & J3 & J4). constructor; [|apply IH; reflexivity].
  exists i. split; [exact J1|]. split; [apply gather_ok; exact Ex|]. auto.
Qed.
Lemma drawn_rows grid n w xs B : Forall2 (fun w x => drawn_from grid w n x) w xs -> map (map xy) B = xs ->
  Forall2 (fun w row => drawn_from grid w n (map xy row)) w B.
Proof.
  intros F. revert B. induction F as [|a x w xs J F IH]; intros [|row B] E; try discriminate; constructor; cbn in E; injection E as <- <-; [exact J|].
  apply IH. reflexivity.
Qed.

Section Forward.
Variable mult : nat -> bool -> nat -> list (list R) -> nat -> result (list (list nat)).
Hypothesis Hmult : torch_multinomial mult.

(* the part after the choice of the cameras *)
Definition choose (grid : list (R * R)) (batch : nat) (mask : option (list (list R))) (per_image : option nat) : result (list (list (R * R))) :=
  per_image <- match mask, per_image with
               | Some m, None => n <- mask_rays m ;; Ok (Some n)
               | _, _ => Ok per_image
               end ;;
  match per_image with
  | None => Ok (repeat grid batch)
  | Some n =>
      weights <- match mask with
                 | Some m => if ((length m =? batch) && forallb (fun r => length r =? length grid) m)%nat
                             then Ok m else Fail ERuntime
                 | None => Ok (repeat (repeat 1 (length grid)) batch)
                 end ;;
      idx <- safe_multinomial mult (length grid) weights n ;;
      rmap (rmap (fun i => match nth_error grid i with Some p => Ok p | None => Fail EIndex end)) idx
  end.
Lemma choose_ok grid batch mask per_image xs : choose grid batch mask per_image = Ok xs ->
  length xs = batch /\
  match mask, per_image with
  | None, None => xs = repeat grid batch
  | None, Some n => Forall2 (fun w x => drawn_from grid w n x) (repeat (repeat 1 (length grid)) batch) xs
  | Some m, None => exists n, mask_rays m = Ok n /\ Forall2 (fun w x => drawn_from grid w n x) m xs
  | Some m, Some n => Forall2 (fun w x => drawn_from grid w n x) m xs
  end.
Proof.
  unfold choose. intros H. destruct mask as [m|], per_image as [n|]; cbn [rbind] in H.
  - destruct ((length m =? batch)%nat && _)%bool eqn:Em; cbn [rbind] in H; [|discriminate].
    destruct (safe_multinomial mult (length grid) m n) as [idx|] eqn:Es; cbn [rbind] in H; [|discriminate].
    destruct (safe_multinomial_draws mult Hmult _ _ _ _ Es) as (_ & F). pose proof (gather_rows _ _ _ _ _ F H) as G.
    split; [|exact G]. apply andb_prop in Em as (Em & _). apply Nat.eqb_eq in Em. rewrite <- Em. symmetry. eapply Forall2_length; exact G.
  - destruct (mask_rays m) as [n|]; cbn [rbind] in H; [|discriminate].
    destruct ((length m =? batch)%nat && _)%bool eqn:Em; cbn [rbind] in H; [|discriminate].
    destruct (safe_multinomial mult (length grid) m n) as [idx|] eqn:Es; cbn [rbind] in H; [|discriminate].
    destruct (safe_multinomial_draws mult Hmult _ _ _ _ Es) as (_ & F). pose proof (gather_rows _ _ _ _ _ F H) as G.
    split; [|exists n; auto]. apply andb_prop in Em as (Em & _). apply Nat.eqb_eq in Em. rewrite <- Em. symmetry. eapply Forall2_length; exact G.
  - match type of H with context [safe_multinomial mult ?a ?b n] => destruct (safe_multinomial mult a b n) as [idx|] eqn:Es end; cbn [rbind] in H; [|discriminate].
    destruct (safe_multinomial_draws mult Hmult _ _ _ _ Es) as (_ & F). pose proof (gather_rows _ _ _ _ _ F H) as G.
    split; [|exact G]. apply Forall2_length in G. rewrite repeat_length in G. auto.
  - injection H as <-. split; [apply repeat_length|reflexivity].
Qed.

Lemma forward_eq sm kw ids jitter cs :
  multinomial_forward mult sm kw ids jitter cs =
  (let total := por (f_total kw) (s_total sm) in
   let per_image := por (f_per_image kw) (s_per_image sm) in
   if match total, per_image with Some _, Some _ => true | _, _ => false end then Fail EValue
   else
    st <- match total with
          | Some (S n) =>
              x <- sample_cameras (ids (S n)) cs (f_mask kw) ;;
              let '(c, m, u, counts, k) := x in Ok (c, m, u, counts, Some k)
          | _ => Ok (cs, f_mask kw, map Z.of_nat (seq 0 (cs_n cs)), [], per_image)
          end ;;
    let '(cs, mask, cids, counts, per_image) := st in
    grids <- choose (s_xy sm) (length (cs_R cs)) mask per_image ;;
    b <- xy_to_ray_bundle (s_unit sm) (default (f_min kw) (s_min sm)) (default (f_max kw) (s_max sm))
           (default (f_npts kw) (s_npts sm)) jitter cs grids ;;
    finish b cids counts total).
Proof.
  unfold multinomial_forward. cbv zeta.
  destruct (match por (f_total kw) (s_total sm), por (f_per_image kw) (s_per_image sm) with Some _, Some _ => true | _, _ => false end); [reflexivity|].
  match goal with |- (rbind ?b _) = _ => destruct b as [[[[[c m] u] counts] k]|]; [|reflexivity] end. cbn [rbind]. unfold choose.
  match goal with |- (rbind ?b _) = _ => destruct b as [p|]; reflexivity end.
Qed.

Lemma forward_regular sm kw ids jitter cs B : good_cameras cs ->
  multinomial_forward mult sm kw ids jitter cs = Ok (Regular B) ->
  length B = cs_n cs /\
  (forall i row, nth_error B i = Some row -> Forall (ray_of (s_unit sm) cs i) row) /\
  match f_mask kw, por (f_per_image kw) (s_per_image sm) with
  | None, None => map (map xy) B = repeat (s_xy sm) (cs_n cs)
  | None, Some n => Forall (fun row => drawn_from (s_xy sm) (repeat 1 (length (s_xy sm))) n (map xy row)) B
  | Some m, None => exists n, mask_rays m = Ok n /\ Forall2 (fun w row => drawn_from (s_xy sm) w n (map xy row)) m B
  | Some m, Some n => Forall2 (fun w row => drawn_from (s_xy sm) w n (map xy row)) m B
  end.
Proof.
  intros G H. rewrite forward_eq in H. cbv zeta in H.
  destruct (match por (f_total kw) (s_total sm), por (f_per_image kw) (s_per_image sm) with Some _, Some _ => true | _, _ => false end); [discriminate|].
  set (pi := por (f_per_image kw) (s_per_image sm)) in *. set (tot := por (f_total kw) (s_total sm)) in *.
  assert (K : exists grids lo hi np, choose (s_xy sm) (length (cs_R cs)) (f_mask kw) pi = Ok grids /\
     xy_to_ray_bundle (s_unit sm) lo hi np jitter cs grids = Ok B).
  { destruct tot as [[|n]|]; cbn [rbind] in H.
    - destruct (choose _ _ _ _) as [grids|]; cbn [rbind] in H; [|discriminate].
      destruct (xy_to_ray_bundle _ _ _ _ _ _ _) as [b|] eqn:Eb; cbn [rbind finish] in H; [|discriminate]. injection H as <-. eauto 6.
    - exfalso. destruct (sample_cameras (ids (S n)) cs (f_mask kw)) as [[[[[c m] u] counts] k]|]; cbn [rbind] in H; [|discriminate].
      destruct (choose _ _ _ _) as [grids|]; cbn [rbind] in H; [|discriminate].
      destruct (xy_to_ray_bundle _ _ _ _ _ _ _) as [b|]; cbn [rbind finish] in H; [|discriminate].
      destruct (pack_rays b counts) as [r|]; cbn [rbind] in H; discriminate.
    - destruct (choose _ _ _ _) as [grids|]; cbn [rbind] in H; [|discriminate].
      destruct (xy_to_ray_bundle _ _ _ _ _ _ _) as [b|] eqn:Eb; cbn [rbind finish] in H; [|discriminate]. injection H as <-. eauto 6. }
  destruct K as (grids & lo & hi & np & Hc & Hb). destruct (choose_ok _ _ _ _ _ Hc) as (Lg & Sg).
  assert (W1 : length (cs_R cs) = cs_n cs) by (destruct G as ((W1 & _) & _); exact W1). rewrite W1 in *.
  destruct (bundle_good _ _ _ _ _ _ _ _ G Lg Hb) as (E1 & E2).
  split; [rewrite <- Lg, <- E1; symmetry; apply map_length|]. split; [intros i row Hr; apply (E2 i row Hr)|].
  destruct (f_mask kw) as [m|], pi as [n|].
  - eapply drawn_rows; eassumption.
  - destruct Sg as (n & Hn & Sg). exists n. split; [exact Hn|]. eapply drawn_rows; eassumption.
  - pose proof (drawn_rows _ _ _ _ _ Sg E1) as F. apply Forall_forall. intros row Hrow. apply In_nth_error in Hrow as (i & Hi).
    assert (X : exists w, nth_error (repeat (repeat 1 (length (s_xy sm))) (cs_n cs)) i = Some w /\ drawn_from (s_xy sm) w n (map xy row)).
    { clear - F Hi. revert i Hi. induction F as [|w b ws bs J F IH]; intros [|i] Hi; try discriminate; cbn in *; [injection Hi as <-; eauto|apply IH; exact Hi]. }
    destruct X as (w & Hw & D). apply nth_error_In, repeat_spec in Hw. subst w. exact D.
  - congruence.
Qed.

(* ---- n_rays_total ---- *)
Lemma batch_nth_lt {A} (l : list A) k : (k < length l)%nat -> batch_nth l k = nth_error l k.
Proof. intros H. unfold batch_nth. destruct (length l =? 1)%nat eqn:E; [apply Nat.eqb_eq in E; replace k with 0%nat by lia; reflexivity|reflexivity]. Qed.
End Forward.
