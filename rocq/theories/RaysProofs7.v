(* When the samplers succeed; a lawful torch.multinomial; examples. *)
From Verif Require Import Base Packing PackingSpec PackingProofs PackOpsProofs.
From Verif Require Import RBase Geom GeomProofs LinAlg Transform TransformSpec Camera CameraSpec CameraProofs CameraProofs6 Implicit ImplicitSpec Rays RaysSpec RaysProofs RaysProofs2 RaysProofs3 RaysProofs4 RaysProofs5 RaysProofs6.
From Verif Require Meshes MeshesProofs5.
From Coq Require Import Sorted.
Local Open Scope R_scope.

Lemma good_bundle unit lo hi npts jitter cs xys : good_cameras cs -> length xys = cs_n cs ->
  exists B, xy_to_ray_bundle unit lo hi npts jitter cs xys = Ok B.
Proof.
  intros (W & HK & Hn & Hreg & HR & Hs) Hl.
  destruct (bundle_defined unit lo hi npts jitter cs xys W HK Hn Hreg HR Hs Hl) as (B & E & _). eauto.
Qed.
Lemma grid_defined mult sm kw ids jitter cs : good_cameras cs -> f_mask kw = None ->
  por (f_per_image kw) (s_per_image sm) = None -> por (f_total kw) (s_total sm) = None ->
  exists B, multinomial_forward mult sm kw ids jitter cs = Ok (Regular B).
Proof.
  intros G Hm Hp Ht. rewrite forward_eq. cbv zeta. rewrite Hp, Ht, Hm. cbn [rbind choose]. unfold choose. cbn [rbind].
  assert (W1 : length (cs_R cs) = cs_n cs) by (destruct G as ((W1 & _) & _); exact W1).
  destruct (good_bundle (s_unit sm) (default (f_min kw) (s_min sm)) (default (f_max kw) (s_max sm)) (default (f_npts kw) (s_npts sm)) jitter cs
    (repeat (s_xy sm) (length (cs_R cs))) G) as (B & ->); [rewrite repeat_length; exact W1|]. exists B. reflexivity.
Qed.
Lemma counts_refused mult sm kw ids jitter cs a b :
  por (f_per_image kw) (s_per_image sm) = Some a -> por (f_total kw) (s_total sm) = Some b ->
  multinomial_forward mult sm kw ids jitter cs = Fail EValue.
Proof. intros Ha Hb. unfold multinomial_forward. cbv zeta. rewrite Ha, Hb. reflexivity. Qed.

Lemma too_many_rays mult sm kw ids jitter cs n : torch_multinomial mult ->
  por (f_per_image kw) (s_per_image sm) = Some n -> (length (s_xy sm) < n)%nat ->
  exists e, multinomial_forward mult sm kw ids jitter cs = Fail e.
Proof.
  intros Hm Hp Hn. rewrite forward_eq. cbv zeta. rewrite Hp.
  destruct (por (f_total kw) (s_total sm)) as [t|]; [eexists; reflexivity|]. cbn [rbind]. unfold choose.
  destruct (f_mask kw) as [m|]; cbn [rbind].
  - destruct (_ && _)%bool; cbn [rbind]; [|eexists; reflexivity]. destruct (too_many_draws mult Hm (length (s_xy sm)) m n Hn) as (e & ->). eexists; reflexivity.
  - match goal with |- context [safe_multinomial mult _ ?w n] => destruct (too_many_draws mult Hm (length (s_xy sm)) w n Hn) as (e & ->) end. eexists; reflexivity.
Qed.

Lemma monte_total_defined min_x max_x min_y max_y t unit lo hi npts ids rnd jitter cs : good_cameras cs ->
  ids (S t) <> [] -> Forall (fun z => (0 <= z < Z.of_nat (cs_n cs))%Z) (ids (S t)) ->
  exists rays cids counts, monte_carlo_forward min_x max_x min_y max_y None (Some (S t)) unit lo hi npts ids rnd jitter cs = Ok (Packed rays cids counts).
Proof.
  intros G Nid F. unfold monte_carlo_forward.
  assert (In_u : forall z, In z (Meshes.unique (ids (S t))) <-> In z (ids (S t))) by (intros z; apply MeshesProofs5.unique_in).
  assert (Nu : Meshes.unique (ids (S t)) <> []).
  { intros E. destruct (ids (S t)) as [|z l]; [congruence|]. assert (In z (Meshes.unique (z :: l))) as K by (apply In_u; left; reflexivity). rewrite E in K. destruct K. }
  assert (Es : exists x, sample_cameras (ids (S t)) cs None = Ok x).
  { unfold sample_cameras. cbv zeta. destruct (getitem_defined cs (CxList (Meshes.unique (ids (S t))))) as (c & ->).
    - apply G.
    - split; [exact Nu|]. apply Forall_forall. intros z Hz. apply In_u in Hz. rewrite Forall_forall in F. specialize (F z Hz). lia.
    - eexists. reflexivity. }
  destruct Es as ([[[[c m] u] cnt] k0] & Es). rewrite Es. cbn [rbind].
  assert (F0 : Forall (fun z => (0 <= z)%Z) (ids (S t))) by (eapply Forall_impl; [|exact F]; cbn; intros; lia).
  destruct (sample_cameras_ok _ _ _ _ _ _ _ _ G Nid F0 Es) as (C1 & C2 & C3 & C4 & C5 & C6 & C7 & C8 & C9 & C10).
  assert (W1 : length (cs_R c) = cs_n c) by (destruct C1 as ((W1 & _) & _); exact W1). rewrite W1.
  match goal with |- context [xy_to_ray_bundle _ _ _ _ _ _ ?g] => assert (Lg : length g = cs_n c) by (rewrite map_length, seq_length; reflexivity);
    destruct (good_bundle unit lo hi npts jitter c g C1 Lg) as (B & Eb); rewrite Eb end.
  cbn [rbind finish]. destruct (bundle_good _ _ _ _ _ _ _ _ C1 Lg Eb) as (E1 & _).
  rewrite pack_rays_spec; [cbn [rbind]; do 3 eexists; reflexivity|]. apply forall2_of_nth.
  - apply (f_equal (@length _)) in E1. rewrite map_length, Lg in E1. rewrite C6, map_length. lia.
  - intros k x y Hx Hy. assert (Hin : In (map xy y) (map (map xy) B)) by (apply in_map; eapply nth_error_In; exact Hy).
    rewrite E1 in Hin. apply in_map_iff in Hin as (b & E & _). apply (f_equal (@length _)) in E. rewrite !map_length, seq_length in E.
    rewrite <- E. apply C7. eapply nth_error_In; exact Hx.
Qed.

(* a lawful torch.multinomial: the first positive entries in turn *)
Definition first_positives (row : list R) : list nat := filter (fun i => Rltb 0 (nth i row 0)) (seq 0 (length row)).
Definition some_multinomial (k : nat) (rep : bool) (cols : nat) (w : list (list R)) (n : nat) : result (list (list nat)) :=
  if (n =? 0)%nat then Fail ERuntime
  else if rep
  then rmap (fun row => match first_positives row with [] => Fail ERuntime | i :: _ => Ok (repeat i n) end) w
  else if (cols <? n)%nat then Fail ERuntime
  else rmap (fun row => if (n <=? length (first_positives row))%nat then Ok (firstn n (first_positives row)) else Fail ERuntime) w.
Lemma first_positives_in row i : In i (first_positives row) -> (i < length row)%nat /\ 0 < nth i row 0.
Proof.
  intros H. apply filter_In in H as (H1 & H2). apply in_seq in H1. split; [lia|]. destruct (Rltb_spec 0 (nth i row 0)); [assumption|discriminate].
Qed.
Lemma rmap_forall2 {A B} (f : A -> result B) l out (P : A -> B -> Prop) : (forall x y, f x = Ok y -> P x y) -> rmap f l = Ok out -> Forall2 P l out.
Proof.
  intros H. revert out. induction l as [|a l IH]; intros out E; cbn [rmap] in E; [injection E as <-; constructor|].
  destruct (f a) as [b|] eqn:Ef; cbn [rbind] in E; [|discriminate]. destruct (rmap f l) as [o|] eqn:Eo; cbn [rbind] in E; [|discriminate].
  injection E as <-. constructor; [apply H; exact Ef|apply IH; reflexivity].
Qed.
Lemma multinomial_exists : torch_multinomial some_multinomial.
Proof.
  split; [|split].
  - intros k rep cols w n res H. unfold some_multinomial in H. destruct (Nat.eqb_spec n 0) as [|Hn]; [discriminate|]. split; [lia|].
    destruct rep.
    + eapply rmap_forall2; [|exact H]. intros row idx Hr. cbn beta in Hr. destruct (first_positives row) as [|i l] eqn:E; [discriminate|]. injection Hr as <-.
      destruct (first_positives_in row i) as (I1 & I2); [rewrite E; left; reflexivity|].
      split; [apply repeat_length|]. split; [apply Forall_forall; intros x Hx; apply repeat_spec in Hx; subst x; exact I1|].
      split; [|discriminate]. intros _. apply Forall_forall; intros x Hx; apply repeat_spec in Hx; subst x; exact I2.
    + destruct (Nat.ltb_spec cols n); [discriminate|]. eapply rmap_forall2; [|exact H]. intros row idx Hr. cbn beta in Hr.
      destruct (Nat.leb_spec n (length (first_positives row))) as [L|]; [|discriminate]. injection Hr as <-.
      assert (In1 : forall i, In i (firstn n (first_positives row)) -> In i (first_positives row)).
      { intros i Hi. rewrite <- (firstn_skipn n (first_positives row)). apply in_or_app. left; exact Hi. }
      split; [apply firstn_length_le; exact L|]. split; [apply Forall_forall; intros x Hx; apply (first_positives_in row x (In1 x Hx))|].
      split; [discriminate|]. intros _. split.
      * assert (N : NoDup (first_positives row)) by (apply NoDup_filter, seq_NoDup).
        rewrite <- (firstn_skipn n (first_positives row)) in N. revert N. generalize (firstn n (first_positives row)), (skipn n (first_positives row)).
        clear. intros l l'. induction l as [|a l IH]; intros N; [constructor|]. cbn in N. inversion N as [|? ? N1 N2]; subst. constructor; [|apply IH; exact N2].
        intros K. apply N1. apply in_or_app. left; exact K.
      * intros _. apply Forall_forall; intros x Hx; apply (first_positives_in row x (In1 x Hx)).
  - intros k cols w n H. unfold some_multinomial. destruct (Nat.eqb_spec n 0); [reflexivity|]. destruct (Nat.ltb_spec cols n); [reflexivity|lia].
  - intros k rep cols w. reflexivity.
Qed.

(* two perspective cameras, one of them turned and moved *)
Definition two_cameras : cameras :=
  Cams CPersp [Persp 2 3 (/ 4) 0; Persp 1 1 0 (/ 2)] None
    [id3; M3 0 1 0 (-1) 0 0 0 0 1] [V3 0 0 3; V3 1 2 5] true None.
Lemma two_cameras_good : good_cameras two_cameras.
Proof.
  split; [|split; [reflexivity|split; [cbn; lia|split; [|split; [|discriminate]]]]].
  - repeat split; try discriminate. intros c [<-|[<-|[]]]; reflexivity.
  - intros c [<-|[<-|[]]]; cbn; split; lra.
  - intros r [<-|[<-|[]]]; unfold det3, id3; cbn -[Rmult Rplus Rminus IZR]; intros K; ring_simplify in K; lra.
Qed.
Lemma two_cameras_orthogonal r : In r (cs_R two_cameras) -> orthogonal r.
Proof. intros [<-|[<-|[]]]; unfold orthogonal, mul3, tr3, id3; cbn; apply M3_eq; cbn; ring. Qed.
