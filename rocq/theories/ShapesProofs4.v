(* The icosphere: level 0 and all further levels. *)
From Coq Require Import Lra Permutation.
From Verif Require Import Base Packing RBase Geom FaceAreas FaceAreasSpec Meshes MeshesSpec MeshesHistSpec Subdivide SubdivideSpec Shapes ShapesSpec.
From Verif Require Import GeomProofs MeshesProofs8 SubdivideProofs4 SubdivideProofs5 SubdivideProofs6 ShapesProofs ShapesProofs2 ShapesProofs3.
Local Open Scope R_scope.

(* ---- deciding the combinatorial conditions ---- *)
Definition same_zz (e e' : Z * Z) : bool := ((fst e =? fst e') && (snd e =? snd e'))%Z.
Lemma same_zz_spec e e' : same_zz e e' = true <-> e = e'.
Proof. destruct e, e'. unfold same_zz. cbn. rewrite Bool.andb_true_iff, !Z.eqb_eq. split; [intros (-> & ->); reflexivity|intros H; injection H; auto]. Qed.
Fixpoint nodupb (l : list (Z * Z)) : bool := match l with [] => true | e :: l' => negb (existsb (same_zz e) l') && nodupb l' end.
Lemma nodupb_ok l : nodupb l = true -> NoDup l.
Proof.
  induction l as [|e l IH]; cbn; [constructor|]. rewrite Bool.andb_true_iff, Bool.negb_true_iff. intros (H & H'). constructor; [|auto].
  intros Hin. assert (X : existsb (same_zz e) l = true); [|congruence]. apply existsb_exists. exists e. split; [exact Hin|]. apply same_zz_spec. reflexivity.
Qed.
Definition closedb (fs : list face) : bool :=
  nodupb (directed fs) && forallb (fun e => negb (fst e =? snd e)%Z && existsb (same_zz (snd e, fst e)) (directed fs)) (directed fs).
Lemma closedb_ok fs : closedb fs = true -> closed_surface fs.
Proof.
  unfold closedb. rewrite Bool.andb_true_iff, forallb_forall. intros (N & B). split; [apply nodupb_ok, N|]. intros u v H.
  specialize (B _ H). cbn [fst snd] in B. rewrite Bool.andb_true_iff, Bool.negb_true_iff, Z.eqb_neq in B. destruct B as (B1 & B2). split; [exact B1|].
  apply existsb_exists in B2. destruct B2 as (e & He & Q). apply same_zz_spec in Q. subst e. exact He.
Qed.
Definition same_f (f g : face) : bool := let '(a, b, c) := f in let '(x, y, z) := g in ((a =? x) && (b =? y) && (c =? z))%Z.
Definition one_sidedb (fs : list face) : bool :=
  forallb (fun f => forallb (fun g => negb (let '(a, b, c) := flip f in same_f (a, b, c) g || same_f (b, c, a) g || same_f (c, a, b) g)) fs) fs.
Lemma same_f_refl f : same_f f f = true.
Proof. destruct f as ((a, b), c). unfold same_f. rewrite !Z.eqb_refl. reflexivity. Qed.
Lemma one_sidedb_ok fs : one_sidedb fs = true -> one_sided fs.
Proof.
  unfold one_sidedb. rewrite forallb_forall. intros H f g Hf Hg S. specialize (H f Hf). rewrite forallb_forall in H. specialize (H g Hg).
  apply Bool.negb_true_iff in H. destruct (flip f) as ((a, b), c). apply Bool.orb_false_iff in H. destruct H as (H & H3). apply Bool.orb_false_iff in H. destruct H as (H1 & H2).
  cbn [same_face] in S. destruct S as [-> | [-> | -> ]]; rewrite same_f_refl in *; discriminate.
Qed.

Definition ico0 : mesh := (ico_verts0, ico_faces0).
Lemma ico0_closed : closed_surface ico_faces0.
Proof. apply closedb_ok. vm_compute. reflexivity. Qed.
Lemma ico0_one_sided : one_sided ico_faces0.
Proof. apply one_sidedb_ok. vm_compute. reflexivity. Qed.
Lemma ico0_good : good_mesh ico0.
Proof. unfold good_mesh, ico0, ico_faces0. cbn [fst snd length ico_verts0]. repeat constructor; cbn; lia. Qed.
Lemma ico0_norms v : In v ico_verts0 -> dot3 v v = 100005098 / 100000000.
Proof.
  unfold ico_verts0. cbn [In]. intros H. repeat (destruct H as [<-|H]; [unfold dot3, lo, hi; cbn [x3 y3 z3]; field|]). destruct H.
Qed.
Lemma ico0_sphere : sphere ico0.
Proof.
  split; [exact ico0_good|]. split; [exact ico0_closed|]. split; [exact ico0_one_sided|]. split; [|split].
  - apply Forall_forall. intros v H. rewrite (ico0_norms v H). lra.
  - intros u v. unfold ico0, ico_faces0, directed. cbn [fst snd flat_map rim app In]. intros H.
    repeat (destruct H as [H|H]; [injection H as <- <-; unfold at_, ico_verts0, dot3, lo, hi;
      match goal with |- context [Z.to_nat ?a] => let n := eval compute in (Z.to_nat a) in change (Z.to_nat a) with n end;
      try match goal with |- context [Z.to_nat ?a] => let n := eval compute in (Z.to_nat a) in change (Z.to_nat a) with n end;
      cbn [nth x3 y3 z3]; lra|]). destruct H.
  - unfold ico0, ico_faces0. cbn [fst snd]. repeat (constructor; [unfold outward, at_, ico_verts0, tri_cross, cross3, sub3, dot3, lo, hi;
      repeat match goal with |- context [Z.to_nat ?a] => let n := eval compute in (Z.to_nat a) in change (Z.to_nat a) with n end;
      cbn [nth x3 y3 z3]; lra|]). constructor.
Qed.

Section Levels.
Variable argsort : list Z -> list nat.
Hypothesis Hsorts : sorts argsort.

Lemma verts_list_r m a : reachable argsort m a -> exists m', verts_list m = Ok (map fst (batch a), m') /\ reachable argsort m' a.
Proof.
  intros H. destruct (ask_reach argsort Hsorts QVertsList m a H) as (r & m' & E & T & Rr). cbn in E. destruct (verts_list m) as [(x, y)|]; [|discriminate].
  injection E as <- <-. cbn in T. subst x. eauto.
Qed.
Lemma faces_list_r m a : reachable argsort m a -> exists m', faces_list m = Ok (map snd (batch a), m') /\ reachable argsort m' a.
Proof.
  intros H. destruct (ask_reach argsort Hsorts QFacesList m a H) as (r & m' & E & T & Rr). cbn in E. destruct (faces_list m) as [(x, y)|]; [|discriminate].
  injection E as <- <-. cbn in T. subst x. eauto.
Qed.
Lemma new_one (p : mesh) : good_mesh p -> snd p <> [] -> exists m, new_list [fst p] [snd p] = Ok m /\ reachable argsort m (from_lists [p]).
Proof.
  intros G H. assert (Gs : Forall good_mesh [p]) by (constructor; [exact G|constructor]). assert (Hf : has_a_face [p]) by (exists p; split; [left; reflexivity|exact H]).
  destruct (list_behaves argsort Hsorts [p] Gs Hf) as (m & E & _). cbn [map] in E. exists m. split; [exact E|]. apply made_from_lists; assumption.
Qed.

(* one more level: subdivide and push all vertices to distance 1 *)
Definition next_level (p p' : mesh) : Prop := exists E p1, subdivided p E p1 /\ p' = inflate p1.
Lemma level_step n m p : ico_level argsort n = Ok m -> reachable argsort m (from_lists [p]) -> sphere p -> snd p <> [] ->
  exists m' p', ico_level argsort (S n) = Ok m' /\ reachable argsort m' (from_lists [p']) /\ next_level p p'.
Proof.
  intros E Rm HS Hne. cbn [ico_level]. rewrite E. cbn [rbind].
  destruct (hetero_batch argsort tt (fun u _ : unit => u) m (from_lists [p]) None Hsorts Rm) as (o & nf & m1 & b' & Es & E1 & _ & Sb & Ro & _).
  { intros f Hf. discriminate. }
  cbn [from_lists batch] in Sb. inversion Sb as [|p0 b0 E0 Es0 p1 b1 Hsub Sb0]; subst. inversion Sb0; subst. clear Sb Sb0.
  rewrite E1. cbn [rbind]. destruct (verts_list_r o _ Ro) as (o1 & Ev & R1). rewrite Ev. cbn [rbind from_lists batch map].
  destruct (faces_list_r o1 _ R1) as (o2 & Ef & R2). cbn [rget nth_error rbind]. rewrite Ef. cbn [rbind from_lists batch map rget nth_error].
  pose proof (step_sphere p p1 E0 HS Hsub) as S'.
  destruct (new_one (inflate p1)) as (m' & En & Rn); [apply S'| |].
  { pose proof (step_counts p p1 E0 HS Hsub) as (_ & L & _). intros C. cbn [inflate snd] in *. rewrite C in L. destruct (snd p); [congruence|cbn in L; lia]. }
  exists m', (inflate p1). split; [exact En|]. split; [exact Rn|]. exists E0, p1. auto.
Qed.
Lemma pow4 n : (4 ^ S n = 4 * 4 ^ n)%nat.
Proof. reflexivity. Qed.
Lemma level_ok n : exists m p, ico_level argsort n = Ok m /\ reachable argsort m (from_lists [p]) /\ sphere p /\
  length (fst p) = (10 * 4 ^ n + 2)%nat /\ length (snd p) = (20 * 4 ^ n)%nat /\
  ((n = 0)%nat -> p = ico0) /\ ((0 < n)%nat -> Forall (fun v => norm3 v = 1) (fst p)).
Proof.
  induction n as [|n (m & p & E & Rm & HS & L1 & L2 & _ & _)].
  - destruct (new_one ico0) as (m & E & Rm); [exact ico0_good|discriminate|]. exists m, ico0. split; [exact E|]. split; [exact Rm|]. split; [exact ico0_sphere|].
    split; [reflexivity|]. split; [reflexivity|]. split; [reflexivity|lia].
  - assert (Hp : (0 < 4 ^ n)%nat) by (assert (4 ^ n <> 0)%nat by (apply Nat.pow_nonzero; lia); lia).
    assert (Hne : snd p <> []) by (intros C; rewrite C in L2; cbn in L2; lia).
    destruct (level_step n m p E Rm HS Hne) as (m' & p' & E' & R' & (Ed & p1 & Hsub & ->)). exists m', (inflate p1). split; [exact E'|]. split; [exact R'|].
    split; [exact (step_sphere p p1 Ed HS Hsub)|]. destruct (step_counts p p1 Ed HS Hsub) as (C1 & C2 & C3). rewrite C1, C2, pow4.
    split; [lia|]. split; [lia|]. split; [lia|]. intros _. exact (step_unit p p1 Ed HS Hsub).
Qed.

Theorem ico_ok level : (0 <= level)%Z -> exists m p, ico_sphere argsort level = Ok m /\ reachable argsort m (from_lists [p]) /\
  length (fst p) = (10 * 4 ^ Z.to_nat level + 2)%nat /\ length (snd p) = (20 * 4 ^ Z.to_nat level)%nat /\
  good_mesh p /\ closed_surface (snd p) /\ one_sided (snd p) /\ Forall (outward (fst p)) (snd p) /\
  (forall E, edge_list (snd p) E -> euler p E = 2%Z) /\
  Forall (fun v => 1 <= norm3 v * norm3 v <= 1 + 6 / 100000) (fst p) /\ ((0 < level)%Z -> Forall (fun v => norm3 v = 1) (fst p)).
Proof.
  intros Hl. destruct (level_ok (Z.to_nat level)) as (m & p & E & Rm & (G & HC & HO & Ro & Ne & Out) & L1 & L2 & H0 & H1).
  exists m, p. unfold ico_sphere. destruct (Z.ltb_spec level 0) as [L|_]; [lia|]. split; [exact E|]. split; [exact Rm|]. split; [exact L1|]. split; [exact L2|].
  split; [exact G|]. split; [exact HC|]. split; [exact HO|]. split; [exact Out|]. split; [|split].
  - intros Ed HE. pose proof (closed_edges _ _ HC HE) as Q. unfold euler. lia.
  - destruct (Nat.eq_dec (Z.to_nat level) 0) as [Z0|Z0].
    + rewrite (H0 Z0). apply Forall_forall. intros v Hv. rewrite norm3_sq, (ico0_norms v Hv). lra.
    + eapply Forall_impl; [|apply H1; lia]. cbv beta. intros v Hv. rewrite Hv. lra.
  - intros L. apply H1. lia.
Qed.
Theorem ico_negative level : (level < 0)%Z -> ico_sphere argsort level = Fail EValue.
Proof. intros H. unfold ico_sphere. destruct (Z.ltb_spec level 0); [reflexivity|lia]. Qed.

(* the vertices of a level are the first vertices of the next level *)
Theorem ico_refines level : (0 < level)%Z -> exists m p m' p', ico_sphere argsort level = Ok m /\ reachable argsort m (from_lists [p]) /\
  ico_sphere argsort (level + 1) = Ok m' /\ reachable argsort m' (from_lists [p']) /\
  firstn (length (fst p)) (fst p') = fst p /\
  exists E p1, subdivided p E p1 /\ snd p' = snd p1 /\ fst p' = map (fun v => div3 v (norm3 v)) (fst p1).
Proof.
  intros Hl. destruct (level_ok (Z.to_nat level)) as (m & p & E & Rm & HS & L1 & L2 & _ & H1).
  assert (Hp : (0 < 4 ^ Z.to_nat level)%nat) by (assert (4 ^ Z.to_nat level <> 0)%nat by (apply Nat.pow_nonzero; lia); lia).
  assert (Hne : snd p <> []) by (intros C; rewrite C in L2; cbn in L2; lia).
  destruct (level_step _ m p E Rm HS Hne) as (m' & p' & E' & R' & (Ed & p1 & Hsub & ->)).
  exists m, p, m', (inflate p1). unfold ico_sphere. destruct (Z.ltb_spec level 0) as [L|_]; [lia|]. destruct (Z.ltb_spec (level + 1) 0) as [L|_]; [lia|].
  split; [exact E|]. split; [exact Rm|]. split; [replace (Z.to_nat (level + 1)) with (S (Z.to_nat level)) by lia; exact E'|]. split; [exact R'|]. split.
  - cbn [inflate fst]. rewrite firstn_map. destruct Hsub as (_ & -> & _). unfold split_edges. rewrite firstn_app, firstn_all, Nat.sub_diag. cbn [firstn]. rewrite app_nil_r.
    apply map_id_in. intros v Hv. apply unit_same. specialize (H1 ltac:(lia)). rewrite Forall_forall in H1. apply H1, Hv.
  - exists Ed, p1. auto.
Qed.
End Levels.
