From Verif Require Import Packing PackingSpec.
From Verif Require Import Base RBase Geom GeomSpec FaceAreas FaceAreasSpec Meshes MeshesSpec MeshesHistSpec MeshesProofs Laplace LaplaceSpec LaplaceProofs3 PointMesh PointMeshSpec PointMeshProofs4 SurfaceSample SurfaceSampleSpec SurfaceSampleProofs.
From Verif Require MeshesProofs8 MeshesProofs9 PlyProofs6.
Local Open Scope R_scope.

Lemma forall2_data (P : mesh -> list nat -> Prop) : forall b dr uv ft, Forall2 P b dr -> length uv = length b -> length ft = length b -> Forall2 (fun p s => dmesh s = p /\ P p (ddrawn s) /\ In (duv s) uv) b (data b dr uv ft).
Proof.
  intros b dr uv ft H. revert uv ft. induction H as [|p d b dr Hp H IH]; intros [|u uv] [|f ft] L1 L2; try discriminate; [constructor|]. cbn in L1, L2. cbn [data]. constructor; [cbn; auto|].
  eapply PlyProofs6.f2_impl; [|apply IH; lia]. cbv beta. intros q s (A & B & C). cbn. auto.
Qed.
Lemma f2_right {S T} (P : S -> T -> Prop) (Q : T -> Prop) a b : (forall x y, P x y -> Q y) -> Forall2 P a b -> Forall Q b.
Proof. intros H. induction 1; constructor; eauto. Qed.
Lemma data_in : forall b dr uv ft p d u f, In (p, d, u, f) (data b dr uv ft) -> In p b.
Proof. induction b as [|q b IH]; intros [|? dr] [|? uv] [|? ft] p d u f; try (intros []; fail). cbn. intros [E|H]; [injection E; auto|right; eapply IH; exact H]. Qed.

Section Core.
Variable argsort : list Z -> list nat.
Hypothesis Hsort : sorts argsort.
Variable multinomial : list (list R) -> nat -> result (list (list nat)).
Variable rand : nat -> nat -> list (list (R * R)).
Hypothesis Hr : rand_ok rand.
Notation repr := (MeshesProofs.repr argsort).

Lemma core m a fls n rn rt drawn : wf_state a -> repr a m -> textures_fit (batch a) fls rt -> multinomial (weights_of (batch a)) n = Ok drawn ->
  Forall2 (fun p d => length d = n /\ Forall (fun k => (k < length (faces_of p))%nat /\ 0 < triangle_area (nth k (faces_of p) zero_tri)) d) (with_faces (batch a)) drawn ->
  let uv := rand (length (with_faces (batch a))) n in
  let L := data (with_faces (batch a)) drawn uv (features_for (batch a) fls rt) in
  exists D m', repr a m' /\ somes D = L /\
    Forall2 (fun p o => match o with Some s => has_faces p = true /\ dmesh s = p /\ In s L /\ length (ddrawn s) = n /\ In (duv s) uv /\ Forall (fun k => (k < length (faces_of p))%nat /\ 0 < triangle_area (nth k (faces_of p) zero_tri)) (ddrawn s) | None => has_faces p = false end) (batch a) D /\
    sample_points_from_meshes multinomial rand (option_map (@concat _) fls) n rn rt m =
      Ok (Sampled (map (or_zero n dpoints) D) (if rn then Some (map (or_zero n dnormals) D) else None) (if rt then Some (map (or_zero n dtextures) D) else None), m').
Proof.
  intros Hw R0 Ht Hm HD uv L. destruct (reach_multinomial argsort Hsort multinomial rand m a (option_map (@concat _) fls) n rn rt Hw R0) as (m' & R' & E).
  { intros ->. destruct (Ht eq_refl) as (l & -> & _). discriminate. }
  assert (L1 : length drawn = length (with_faces (batch a))) by (symmetry; exact (Base.Forall2_length _ _ _ HD)).
  assert (L2 : length uv = length (with_faces (batch a))) by apply Hr.
  pose proof (features_length (batch a) fls rt Ht) as L3. destruct (data_maps _ _ _ _ L1 L2 L3) as (M1 & M2 & M3 & M4). fold L in M1, M2, M3, M4.
  pose proof (forall2_data _ _ _ uv (features_for (batch a) fls rt) HD L2 L3) as F0. fold L in F0.
  assert (F1 : Forall2 (fun p s => In s L /\ dmesh s = p /\ length (ddrawn s) = n /\ In (duv s) uv /\ Forall (fun k => (k < length (faces_of p))%nat /\ 0 < triangle_area (nth k (faces_of p) zero_tri)) (ddrawn s)) (with_faces (batch a)) L).
  { assert (G : forall (l1 : list mesh) (l2 : list datum), incl l2 L -> Forall2 (fun p s => dmesh s = p /\ (length (ddrawn s) = n /\ Forall (fun k => (k < length (faces_of p))%nat /\ 0 < triangle_area (nth k (faces_of p) zero_tri)) (ddrawn s)) /\ In (duv s) uv) l1 l2 -> Forall2 (fun p s => In s L /\ dmesh s = p /\ length (ddrawn s) = n /\ In (duv s) uv /\ Forall (fun k => (k < length (faces_of p))%nat /\ 0 < triangle_area (nth k (faces_of p) zero_tri)) (ddrawn s)) l1 l2).
    { intros l1 l2 HI H. induction H as [|p s l1 l2 (A & (B1 & B2) & C) H IH]; constructor; [|apply IH; intros x Hx; apply HI; right; exact Hx]. split; [apply HI; left; reflexivity|tauto]. }
    apply G; [intros x Hx; exact Hx|exact F0]. }
  destruct (put_filter has_faces _ (batch a) L F1) as (D & P1 & P2 & P3).
  exists D, m'. split; [exact R'|]. split; [symmetry; exact P3|]. split; [eapply PlyProofs6.f2_impl; [|exact P2]; cbv beta; intros p [s|] H; tauto|].
  rewrite E, Hm. cbn [rbind]. fold uv.
  assert (HB : Forall (fun s => Forall (fun k => (k < length (faces_of (dmesh s)))%nat) (ddrawn s)) L).
  { eapply f2_right; [|exact F1]. cbv beta. intros p s (A & B & C & C1 & D0). rewrite B. eapply Forall_impl; [|exact D0]. cbv beta. tauto. }
  assert (X1 : concat (map faces_of (batch a)) = concat (map (fun s => faces_of (dmesh s)) L)) by (rewrite <- (map_map dmesh faces_of), M1, <- filter_faces, concat_nonempty; reflexivity).
  assert (X2 : map faces_of (with_faces (batch a)) = map (fun s => faces_of (dmesh s)) L) by (rewrite <- (map_map dmesh faces_of), M1; reflexivity).
  assert (W : map (map bary_of) uv = map (fun s => map bary_of (duv s)) L) by (rewrite <- (map_map duv (map bary_of)), M3; reflexivity).
  rewrite X1, X2, W. rewrite <- M2 at 1.
  pose proof (gather_rows zero_tri (fun s => faces_of (dmesh s)) ddrawn L HB []) as G1. cbn [app length] in G1. rewrite G1. cbn [rbind]. rewrite zip2_map.
  assert (Q : forall f : datum -> list vec3, put_masked (repeat (V3 0 0 0) n) (map has_faces (batch a)) (map f L) = Ok (map (or_zero n f) D)).
  { intros f. pose proof (put_map (or_zero n f) None (map has_faces (batch a)) (map Some L)) as Q. rewrite map_map in Q. cbn [or_zero] in Q. rewrite P1 in Q. exact Q. }
  rewrite Q. cbn [rbind]. fold (dtris (fun s => faces_of (dmesh s))). change (fun s => map (fun q => combine3 (fst q) (snd q)) (combine (map bary_of (duv s)) (map (fun k => nth k (faces_of (dmesh s)) zero_tri) (ddrawn s)))) with dpoints.
  assert (HN : (if rn then l <- gather2 (map unit_normal (concat (map (fun s => faces_of (dmesh s)) L))) (map (fun p => map (fun k => (k + snd p)%nat) (fst p)) (combine drawn (firsts_from 0 (map (fun s => faces_of (dmesh s)) L)))) ;; l0 <- put_masked (repeat (V3 0 0 0) n) (map has_faces (batch a)) l ;; Ok (Some l0) else Ok None) = Ok (if rn then Some (map (or_zero n dnormals) D) else None)).
  { destruct rn; [|reflexivity]. rewrite concat_map, map_map. rewrite <- M2 at 1.
    pose proof (gather_rows (V3 0 0 0) (fun s => map unit_normal (faces_of (dmesh s))) ddrawn L) as G2. specialize (G2 ltac:(eapply Forall_impl; [|exact HB]; cbv beta; intros s Hs; rewrite map_length; exact Hs) []). cbn [app length] in G2.
    replace (firsts_from 0 (map (fun s => faces_of (dmesh s)) L)) with (firsts_from 0 (map (fun s => map unit_normal (faces_of (dmesh s))) L)).
    2:{ generalize 0%nat, L. clear. intros o L; revert o. induction L as [|s l IH]; intros o; [reflexivity|]. cbn [map firsts_from]. rewrite map_length, IH. reflexivity. }
    rewrite G2. cbn [rbind]. pose proof (Q dnormals) as QN. unfold dnormals in QN at 1. rewrite QN. reflexivity. }
  rewrite HN. cbn [rbind]. clear HN. destruct rt; [|reflexivity]. destruct (Ht eq_refl) as (l & El & EV & EF). rewrite El. cbn [option_map].
  assert (EW : with_faces (batch a) = batch a) by (apply all_with_faces; exact EF).
  assert (LL : length L = length (batch a)) by (rewrite <- EW, <- M1, map_length; reflexivity).
  assert (LI : length (map (fun p => map (fun k => (k + snd p)%nat) (fst p)) (combine drawn (firsts_from 0 (map (fun s => faces_of (dmesh s)) L)))) = length (batch a)).
  { rewrite map_length, combine_length. replace (length (firsts_from 0 (map (fun s => faces_of (dmesh s)) L))) with (length L); [rewrite LL, L1, EW; lia|]. generalize 0%nat, L. clear. intros o L; revert o. induction L as [|s l IH]; intros o; [reflexivity|]. cbn [map firsts_from length]. rewrite <- IH. reflexivity. }
  rewrite LI, Nat.eqb_refl. cbn [negb].
  destruct (features_good (batch a) l EV (proj1 Hw)) as (FG & FV). pose proof (faces_moved _ FG []) as EL2. cbn [app length] in EL2. rewrite FV, (faces_from_features _ _ EV) in EL2. change (faces_from 0 (batch a)) with (all_faces (batch a)) in EL2. rewrite EL2. cbn [rbind].
  assert (DF : map (fun s => faces_of (with_features (dmesh s) (dft s))) L = map faces_of (map (fun q => with_features (fst q) (snd q)) (combine (batch a) l))).
  { unfold L. rewrite data_features by assumption. rewrite EW. unfold features_for. rewrite El. reflexivity. }
  rewrite <- DF.
  replace (firsts_from 0 (map (fun s => faces_of (dmesh s)) L)) with (firsts_from 0 (map (fun s => faces_of (with_features (dmesh s) (dft s))) L)).
  2:{ generalize 0%nat, L. clear. intros o L; revert o. induction L as [|s l IH]; intros o; [reflexivity|]. cbn [map firsts_from]. rewrite !faces_of_length, IH. reflexivity. }
  pose proof (gather_rows zero_tri (fun s => faces_of (with_features (dmesh s) (dft s))) ddrawn L) as G3. specialize (G3 ltac:(eapply Forall_impl; [|exact HB]; cbv beta; intros s Hs; rewrite faces_of_length in *; exact Hs) []). cbn [app length] in G3. rewrite M2 in G3. match goal with |- context [gather2 ?x ?y] => change (gather2 x y) with (gather2 (T := tri) x y) end. rewrite G3. cbn [rbind]. rewrite zip2_map.
  do 3 f_equal. f_equal. (* no mesh is empty: D is Some of every datum *)
  assert (DD : D = map Some L).
  { rewrite P3. revert P2 EF. clear. clearbody L uv. intros P2 EF. induction P2 as [|p o b D Ho H IH]; [reflexivity|]. inversion EF; subst. destruct o as [s|]; [cbn; f_equal; apply IH; assumption|]. exfalso. unfold has_faces in Ho. destruct (snd p); [contradiction|discriminate]. }
  rewrite DD, map_map. reflexivity.
Qed.
End Core.
