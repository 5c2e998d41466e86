From Coq Require Import Sorted.
From Verif Require Import Base Packing PackingProofs PackOpsProofs RBase Geom FaceAreas FaceAreasSpec Meshes MeshesSpec MeshesHistSpec
  MeshesProofs MeshesProofs2 MeshesProofs3 MeshesProofs4 MeshesProofs5 MeshesProofs6 MeshesProofs7 MeshesProofs8.
Local Open Scope nat_scope.

(* ---- submeshes ---- *)
Lemma index_of_in u x : In x u -> (0 <= index_of x u)%Z /\ nth_error u (Z.to_nat (index_of x u)) = Some x.
Proof.
  induction u as [|y u IH]; intros H; [destruct H|]. cbn [index_of]. destruct (Z.eqb_spec x y) as [->|Hne]; [split; [lia|reflexivity]|].
  destruct H as [->|H]; [contradiction|]. destruct (IH H) as (H0 & H1). split; [lia|].
  replace (Z.to_nat (1 + index_of x u)) with (S (Z.to_nat (index_of x u))) by lia. exact H1.
Qed.
Lemma corners_range n f v : in_range n f -> In v (corners f) -> (0 <= v < Z.of_nat n)%Z.
Proof. destruct f as ((a, b), c). cbn. intros H [<-|[<-|[<-|[]]]]; tauto. Qed.

Lemma Forall2_in_r {X Y} (P : X -> Y -> Prop) l l' y : Forall2 P l l' -> In y l' -> exists x, In x l /\ P x y.
Proof.
  induction 1 as [|a b l l' H _ IH]; intros Hy; [destruct Hy|]. destruct Hy as [<-|Hy]; [exists a; cbn; auto|].
  destruct (IH Hy) as (x & ? & ?). exists x. cbn. auto.
Qed.
Lemma submesh_ok p ids keep : good_mesh p -> Forall2 (at_index (snd p)) ids keep ->
  exists p', submesh (fst p) (snd p) ids = Ok p' /\ part_of p ids p' /\ good_mesh p'.
Proof.
  intros Hg Hk. unfold submesh. assert (E : rmap (py_nth (snd p)) ids = Ok keep).
  { apply (rmap_forall2 (py_nth (snd p)) (at_index (snd p))); [intros; apply py_nth_index|exact Hk]. }
  rewrite E. cbn [rbind]. cbv zeta. set (u := unique (flat_map corners keep)).
  assert (Hu : forall v, In v u <-> exists f, In f keep /\ In v (corners f)).
  { intros v. unfold u. rewrite unique_in. apply in_flat_map. }
  assert (Hin : forall f, In f keep -> In f (snd p)).
  { clear - Hk. induction Hk as [|i x is xs Hx _ IH]; intros f Hf; [destruct Hf|]. destruct Hf as [<-|Hf]; [eapply at_index_in; exact Hx|auto]. }
  assert (Hr : forall v, In v u -> (0 <= v < Z.of_nat (length (fst p)))%Z).
  { intros v Hv. apply Hu in Hv. destruct Hv as (f & Hf & Hv). unfold good_mesh in Hg. rewrite Forall_forall in Hg. eapply corners_range; [apply Hg, Hin, Hf|exact Hv]. }
  assert (E2 : rmap (py_nth (fst p)) u = Ok (map (at_ (fst p)) u)).
  { apply rmap_ok. intros v Hv. apply py_nth_index. left. specialize (Hr v Hv). split; [lia|]. unfold at_.
    apply nth_error_nth'. lia. }
  rewrite E2. cbn [rbind]. eexists. split; [reflexivity|].
  assert (HF : Forall2 (fun f f' => Forall2 (fun v v' => (0 <= v')%Z /\ nth_error u (Z.to_nat v') = Some v) (corners f) (corners f')) keep
     (map (fun f : face => let '(a, b, c) := f in (index_of a u, index_of b u, index_of c u)) keep)).
  { assert (G : forall l, incl l keep -> Forall2 (fun f f' => Forall2 (fun v v' => (0 <= v')%Z /\ nth_error u (Z.to_nat v') = Some v) (corners f) (corners f')) l
       (map (fun f : face => let '(a, b, c) := f in (index_of a u, index_of b u, index_of c u)) l)); [|apply G, incl_refl].
    induction l as [|f l IH]; intros Hl; [constructor|]. cbn [map]. constructor; [|apply IH; intros x Hx; apply Hl; right; exact Hx].
    assert (Hf : In f keep) by (apply Hl; left; reflexivity). destruct f as ((a, b), c). cbn [corners].
    repeat constructor; apply index_of_in, Hu; exists (a, b, c); cbn; auto. }
  split.
  - exists keep, u. split; [exact Hk|]. split; [apply unique_sorted|]. split; [exact Hu|]. split; [reflexivity|exact HF].
  - unfold good_mesh. cbn [fst snd]. apply Forall_forall. intros f' Hf'.
    assert (exists f, In f keep /\ Forall2 (fun v v' => (0 <= v')%Z /\ nth_error u (Z.to_nat v') = Some v) (corners f) (corners f')) as (f & _ & H).
    { exact (Forall2_in_r _ _ _ f' HF Hf'). }
    rewrite map_length. assert (L : forall v v', (0 <= v')%Z /\ nth_error u (Z.to_nat v') = Some v -> (0 <= v' < Z.of_nat (length u))%Z).
    { intros v v' (H1 & H2). assert (Z.to_nat v' < length u) by (apply nth_error_Some; congruence). lia. }
    destruct f as ((a, b), c), f' as ((a', b'), c'). cbn [corners] in H.
    inversion H as [|? ? ? ? Ha H']; subst. inversion H' as [|? ? ? ? Hb H'']; subst. inversion H'' as [|? ? ? ? Hc _]; subst.
    apply L in Ha, Hb, Hc. cbn. auto.
Qed.

Lemma ids_fit_keep p ids : ids_fit p ids -> exists keep, Forall2 (at_index (snd p)) ids keep.
Proof.
  induction ids as [|i ids IH]; intros H; [exists []; constructor|]. apply Forall_cons_iff in H. destruct H as (Hi & H).
  destruct (IH H) as (keep & Hk).
  assert (exists f, at_index (snd p) i f) as (f & Hf).
  { destruct (Z.ltb_spec i 0).
    - destruct (nth_error (snd p) (Z.to_nat (i + Z.of_nat (length (snd p))))) eqn:E; [|apply nth_error_None in E; lia].
      exists f. right. split; [lia|exact E].
    - destruct (nth_error (snd p) (Z.to_nat i)) eqn:E; [|apply nth_error_None in E; lia].
      exists f. left. split; [lia|exact E]. }
  exists (f :: keep). constructor; assumption.
Qed.

Section More.
Variable argsort : list Z -> list nat.
Hypothesis Hsort : sorts argsort.
Notation repr := (repr argsort).
Notation behaves := (behaves argsort).

Lemma submeshes_ok m b ids : shows m b -> mN m = length b -> Forall good_mesh b -> length ids = length b ->
  Forall2 (fun p is => Forall (ids_fit p) is) b ids ->
  exists o subs, submeshes ids m = Ok o /\ Forall2 (fun q ps => Forall2 (part_of (fst q)) (snd q) ps) (combine b ids) subs /\
    Forall good_mesh (concat subs) /\ fresh argsort (concat subs) o.
Proof.
  intros Hs HN Hg Hl Hfit. unfold submeshes. rewrite HN, Hl, Nat.eqb_refl. cbn [negb].
  destruct (shows_twice m b Hs) as (m1 & m2 & E1 & E2 & _). rewrite E1. cbn [rbind]. rewrite E2. cbn [rbind].
  assert (Hsub : exists subs, rmap (fun p : list (list Z) * (list face * list vec3) => let '(is, (fs, vs)) := p in rmap (submesh vs fs) is) (combine ids (combine (map snd b) (map fst b))) = Ok subs /\
    Forall2 (fun q ps => Forall2 (part_of (fst q)) (snd q) ps) (combine b ids) subs /\ Forall good_mesh (concat subs)).
  { clear - Hg Hfit. induction Hfit as [|p is b iss H Hr IH]; cbn [map combine rmap]; [exists []; cbn; auto|].
    apply Forall_cons_iff in Hg. destruct Hg as (Hp & Hg). destruct (IH Hg) as (subs & E & H1 & H2).
    assert (exists ps, rmap (submesh (fst p) (snd p)) is = Ok ps /\ Forall2 (part_of p) is ps /\ Forall good_mesh ps) as (ps & E' & H1' & H2').
    { clear - H Hp. induction H as [|ids is Hi _ IH]; cbn [rmap]; [exists []; auto|].
      destruct (ids_fit_keep p ids Hi) as (keep & Hk). destruct (submesh_ok p ids keep Hp Hk) as (p' & E & G1 & G2).
      destruct IH as (ps & E' & G1' & G2'). rewrite E. cbn [rbind]. rewrite E'. cbn [rbind]. exists (p' :: ps). auto. }
    rewrite E'. cbn [rbind]. rewrite E. cbn [rbind]. exists (ps :: subs). split; [reflexivity|]. split; [constructor; assumption|].
    cbn [concat]. apply Forall_app. auto. }
  destruct Hsub as (subs & E & H1 & H2). rewrite E. cbn [rbind].
  destruct (new_fresh argsort (concat subs) H2) as (o & Eo & Fo). exists o, subs. auto.
Qed.

(* ---- scene ---- *)
Lemma faces_single p : all_faces [p] = snd p.
Proof. unfold all_faces. cbn [faces_from]. rewrite app_nil_r. rewrite <- (map_id (snd p)) at 2. apply map_ext. intros ((a, b), c). cbn. rewrite !Z.add_0_r. reflexivity. Qed.
Lemma verts_single p : all_verts [p] = fst p.
Proof. unfold all_verts. cbn. apply app_nil_r. Qed.

Lemma all_faces_some b : has_a_face b -> forall o, faces_from o b <> [].
Proof.
  intros (p & Hp & Hs). induction b as [|q b IH]; intros o; [destruct Hp|]. cbn [faces_from]. destruct Hp as [->|Hp].
  - destruct (snd p); [contradiction|discriminate].
  - intros E. apply app_eq_nil in E. apply (IH Hp _ (proj2 E)).
Qed.
Lemma scene_ok a m : wf_state a -> repr a m ->
  exists o, join_scene m = Ok o /\ shows o [(all_verts (batch a), all_faces (batch a))] /\
    behaves o (if length (batch a) =? 1 then a else A [(all_verts (batch a), all_faces (batch a))] [[]] [[]] None).
Proof.
  intros Hw Rm. unfold join_scene. rewrite (r_N _ _ _ Rm). destruct (Nat.eqb_spec (length (batch a)) 1) as [H1|H1].
  - exists m. split; [reflexivity|]. split; [|apply repr_behaves; assumption].
    assert (E : [(all_verts (batch a), all_faces (batch a))] = batch a).
    { destruct (batch a) as [|p [|q l]]; cbn in H1; try lia. rewrite verts_single, faces_single. destruct p; reflexivity. }
    rewrite E. apply (repr_shows argsort); assumption.
  - destruct (with_packed_ok argsort a m pk_verts Hw Rm) as (m1 & E1 & R1 & _). unfold verts_packed. rewrite E1. cbn [rbind].
    destruct (with_packed_ok argsort a m1 pk_faces Hw R1) as (m2 & E2 & R2 & _). unfold faces_packed. rewrite E2. cbn [rbind].
    cbn [packed_of pk_verts pk_faces]. set (p := (all_verts (batch a), all_faces (batch a)) : mesh).
    destruct (new_padded_repr argsort [p] (length (all_verts (batch a))) (length (all_faces (batch a))) [[]]) as (o & E & W & Ro & _).
    + constructor; [|constructor]. apply all_faces_range, Hw.
    + exists p. split; [left; reflexivity|]. apply all_faces_some, Hw.
    + intros q [<-|[]]. reflexivity.
    + reflexivity.
    + repeat constructor.
    + cbn. rewrite app_nil_r. repeat constructor.
    + cbn [map zip_app fst snd p] in E. rewrite app_nil_r in E. exists o. split; [exact E|]. split; [apply (repr_shows argsort _ o W Ro)|apply repr_behaves; assumption].
Qed.

(* ---- one mesh, bounding boxes ---- *)
Lemma get_mesh_ok m b i : shows m b -> mN m = length b ->
  (forall p, (0 <= i)%Z -> nth_error b (Z.to_nat i) = Some p -> get_mesh_verts_faces i m = Ok p) /\
  ((i < 0 \/ Z.of_nat (length b) < i)%Z -> get_mesh_verts_faces i m = Fail EValue) /\
  (i = Z.of_nat (length b) -> get_mesh_verts_faces i m = Fail EIndex).
Proof.
  intros Hs HN. destruct (shows_twice m b Hs) as (m1 & m2 & E1 & E2 & _). unfold get_mesh_verts_faces. rewrite HN, E1. cbn [rbind]. rewrite E2. cbn [rbind].
  split; [|split].
  - intros p Hi Hp. assert (Z.to_nat i < length b) by (apply nth_error_Some; congruence).
    destruct (Z.ltb_spec i 0); [lia|]. destruct (Z.ltb_spec (Z.of_nat (length b)) i); [lia|]. cbn [orb].
    replace (py_nth (map fst b) i) with (Ok (fst p)).
    2:{ symmetry. apply py_nth_index. left. split; [lia|]. apply map_nth_error. exact Hp. }
    replace (py_nth (map snd b) i) with (Ok (snd p)).
    2:{ symmetry. apply py_nth_index. left. split; [lia|]. apply map_nth_error. exact Hp. }
    cbn. destruct p; reflexivity.
  - intros H. destruct (Z.ltb_spec i 0); [reflexivity|]. destruct (Z.ltb_spec (Z.of_nat (length b)) i); [reflexivity|lia].
  - intros ->. rewrite Z.ltb_irrefl. destruct (Z.ltb_spec (Z.of_nat (length b)) 0); [lia|]. cbn [orb].
    destruct (py_nth (map fst b) (Z.of_nat (length b))) eqn:E.
    + apply py_nth_index in E. destruct E as [(_ & E)|(E & _)]; [|lia]. rewrite Nat2Z.id in E.
      assert (K : length b < length (map fst b)) by (apply nth_error_Some; congruence). rewrite map_length in K. destruct (Nat.lt_irrefl _ K).
    + apply py_nth_fail in E. subst. reflexivity.
Qed.

Lemma min_max_ok l : l <> [] -> exists r, min_max l = Ok r /\ range_of l r.
Proof.
  destruct l as [|a l]; [contradiction|]. intros _. eexists. split; [reflexivity|]. unfold range_of. cbn [fst snd].
  assert (Gm : forall l a, (In (fold_left Rmin l a) (a :: l)) /\ (fold_left Rmin l a <= a)%R /\ forall x, In x l -> (fold_left Rmin l a <= x)%R).
  { clear. induction l as [|b l IH]; intros a; cbn [fold_left]; [cbn; repeat split; auto; [lra|tauto]|].
    destruct (IH (Rmin a b)) as (H1 & H2 & H3). pose proof (Rmin_l a b). pose proof (Rmin_r a b). split.
    - destruct H1 as [H1|H1]; [|right; right; exact H1]. destruct (Rmin_case a b (fun r => r = a \/ r = b)); [auto|auto| |].
      + left. congruence.
      + right; left. congruence.
    - split; [lra|]. intros x [<-|Hx]; [lra|auto]. }
  assert (GM : forall l a, (In (fold_left Rmax l a) (a :: l)) /\ (a <= fold_left Rmax l a)%R /\ forall x, In x l -> (x <= fold_left Rmax l a)%R).
  { clear. induction l as [|b l IH]; intros a; cbn [fold_left]; [cbn; repeat split; auto; [lra|tauto]|].
    destruct (IH (Rmax a b)) as (H1 & H2 & H3). pose proof (Rmax_l a b). pose proof (Rmax_r a b). split.
    - destruct H1 as [H1|H1]; [|right; right; exact H1]. destruct (Rmax_case a b (fun r => r = a \/ r = b)); [auto|auto| |].
      + left. congruence.
      + right; left. congruence.
    - split; [lra|]. intros x [<-|Hx]; [lra|auto]. }
  destruct (Gm l a) as (A1 & A2 & A3). destruct (GM l a) as (B1 & B2 & B3). split; [exact A1|]. split; [exact B1|].
  intros x [<-|Hx]; [auto|]. specialize (A3 x Hx). specialize (B3 x Hx). auto.
Qed.
Lemma bbox_ok vs : vs <> [] -> exists box, bbox vs = Ok box /\ box_of vs box.
Proof.
  intros H. assert (N : forall g : vec3 -> R, map g vs <> []) by (intros g; destruct vs; [contradiction|discriminate]).
  unfold bbox. destruct (min_max_ok _ (N x3)) as (x & -> & Hx). destruct (min_max_ok _ (N y3)) as (y & -> & Hy). destruct (min_max_ok _ (N z3)) as (z & -> & Hz).
  cbn [rbind]. exists (x, y, z). split; [reflexivity|]. cbn. auto.
Qed.
Lemma boxes_ok m b : shows m b -> b <> [] -> Forall (fun p => fst p <> []) b ->
  exists boxes, get_bounding_boxes m = Ok boxes /\ Forall2 (fun p box => box_of (fst p) box) b boxes.
Proof.
  intros (m1 & m2 & E1 & _) Hne H. unfold get_bounding_boxes. rewrite E1. cbn [rbind fst].
  assert (exists boxes, rmap bbox (map fst b) = Ok boxes /\ Forall2 (fun p box => box_of (fst p) box) b boxes) as (boxes & E & HF).
  { clear - H. induction H as [|p b Hp _ IH]; cbn [map rmap]; [exists []; auto|]. destruct (bbox_ok _ Hp) as (box & -> & Hb). destruct IH as (bs & -> & Hbs).
    cbn [rbind]. exists (box :: bs). auto. }
  exists boxes. split; [|exact HF]. destruct b as [|p b]; [contradiction|]. exact E.
Qed.

(* ---- reachable objects ---- *)
Lemma reachable_repr m a : reachable argsort m a -> wf_state a /\ repr a m.
Proof.
  induction 1 as [b m Hg Hf E|b M D ft m H1 H2 H3 H4 H5 H6 E|b m ns m' Hg Hf E Hn E'|o m a m' a' _ (Hw & Rm) Hd E].
  - split; [apply from_lists_wf; assumption|]. destruct (new_list_repr argsort b Hg Hf) as (o & Eo & Ro & _). congruence.
  - destruct (new_padded_repr argsort b M D ft H1 H2 H3 H4 H5 H6) as (o & Eo & W & Ro & _). split; [exact W|]. congruence.
  - destruct (new_list_repr argsort b Hg Hf) as (o & Eo & Ro & _).
    destruct (user_normals_ok argsort (from_lists b) o ns (from_lists_wf b Hg Hf) Ro) as (o' & Eo' & R' & W').
    { rewrite <- (map_length (@length vec3) ns), Hn. apply vcount_length. } { exact Hn. }
    split; [exact W'|]. assert (o = m) by congruence. subst o. assert (o' = m') by congruence. subst o'. exact R'.
  - destruct (step_ok argsort Hsort o a a' m Hw Rm Hd) as (m1 & E1 & R1 & W1). split; [exact W1|]. congruence.
Qed.
Theorem reachable_behaves m a : reachable argsort m a -> behaves m a.
Proof. intros H. destruct (reachable_repr m a H). apply repr_behaves; assumption. Qed.
Lemma reachable_shows m a : reachable argsort m a -> shows m (batch a) /\ mN m = length (batch a) /\ Forall good_mesh (batch a).
Proof.
  intros H. destruct (reachable_repr m a H) as (Hw & Rm). split; [apply (repr_shows argsort); assumption|]. split; [apply (r_N _ _ _ Rm)|apply Hw].
Qed.
Lemma reachable_clone m a : reachable argsort m a -> exists m' m1, clone m = Ok (m', m1) /\ behaves m' a /\ behaves m1 a.
Proof. intros H. destruct (reachable_repr m a H). apply clone_both; assumption. Qed.
Lemma reachable_update m a nv a' : reachable argsort m a -> does (Update nv) a a' ->
  exists m' m1, update_padded nv m = Ok (m', m1) /\ behaves m' a' /\ behaves m1 a.
Proof.
  intros H (H1 & H2 & H3 & ->). destruct (reachable_repr m a H) as (Hw & Rm).
  destruct (update_ok argsort nv a m Hw Rm) as (m' & m1 & E & R' & W' & R1). { split; auto. }
  exists m', m1. split; [exact E|]. split; apply repr_behaves; assumption.
Qed.
End More.
