(* The torus. *)
From Coq Require Import Lra Permutation.
From Verif Require Import Base Packing RBase Geom FaceAreas FaceAreasSpec Meshes MeshesSpec MeshesHistSpec Shapes ShapesSpec.
From Verif Require Import GeomProofs MeshesProofs8 MeshesProofs10 ShapesProofs ShapesProofs2 ShapesProofs4.
Local Open Scope Z_scope.

Lemma in_range_iff N i : In i (range N) <-> 0 <= i < N.
Proof.
  unfold range. rewrite in_map_iff. split.
  - intros (n & <- & H). apply in_seq in H. lia.
  - intros H. exists (Z.to_nat i). split; [lia|]. apply in_seq. lia.
Qed.
Lemma range_nodup N : NoDup (range N).
Proof. apply nodup_map_in; [apply seq_NoDup|]. intros; lia. Qed.
Lemma range_length N : length (range N) = Z.to_nat N.
Proof. unfold range. rewrite map_length, seq_length. reflexivity. Qed.
Lemma flat_length {A B} (f : A -> list B) n l : (forall x, In x l -> length (f x) = n) -> length (flat_map f l) = (length l * n)%nat.
Proof. induction l; cbn; intros H; [reflexivity|]. rewrite app_length, IHl by auto. rewrite H by auto. reflexivity. Qed.

Section Grid.
Variables (sides rings : Z).
Hypothesis Hs : 0 < sides.
Hypothesis Hr : 0 < rings.

(* the vertex in ring i at place j, both taken around the torus *)
Definition vx (i j : Z) : Z := (i mod rings) * sides + j mod sides.
Definition quad (i j : Z) : list face :=
  [(vx (i - 1) (j - 1), vx i (j - 1), vx i j); (vx i j, vx (i - 1) j, vx (i - 1) (j - 1))].
Lemma faces_quads : torus_faces sides rings = flat_map (fun i => flat_map (quad i) (range sides)) (range rings).
Proof.
  unfold torus_faces, pair_range. rewrite flat_map_concat_map, map_map, <- flat_map_concat_map. apply flat_map_ext. intros i.
  rewrite flat_map_concat_map, map_map, <- flat_map_concat_map. reflexivity.
Qed.
Lemma vx_range i j : 0 <= vx i j < rings * sides.
Proof. unfold vx. pose proof (Z.mod_pos_bound i rings Hr). pose proof (Z.mod_pos_bound j sides Hs). nia. Qed.
Lemma vx_inj i j i' j' : vx i j = vx i' j' -> i mod rings = i' mod rings /\ j mod sides = j' mod sides.
Proof.
  unfold vx. pose proof (Z.mod_pos_bound j sides Hs). pose proof (Z.mod_pos_bound j' sides Hs). intros Q.
  assert (A : i mod rings = i' mod rings) by nia. split; [exact A|]. nia.
Qed.
Lemma mod_close n a b : 0 < n -> a mod n = b mod n -> Z.abs (a - b) < n -> a = b.
Proof. intros Hn Q L. pose proof (Z.div_mod a n ltac:(lia)) as A. pose proof (Z.div_mod b n ltac:(lia)) as B. rewrite Q in A. assert (a / n = b / n) by nia. nia. Qed.
Lemma mod_shift n a b d : 0 < n -> a mod n = b mod n -> (a + d) mod n = (b + d) mod n.
Proof. intros Hn Q. rewrite <- (Z.add_mod_idemp_l a), <- (Z.add_mod_idemp_l b) by lia. rewrite Q. reflexivity. Qed.
Lemma mod_unshift n a b d d' : 0 < n -> a mod n = b mod n -> (a + d) mod n = (b + d') mod n -> d mod n = d' mod n.
Proof.
  intros Hn Q1 Q2. pose proof (mod_shift n _ _ (- a) Hn Q2) as Q3. replace (a + d + - a) with d in Q3 by lia. rewrite Q3.
  replace (b + d' + - a) with ((b + - a) + d') by lia. rewrite <- Z.add_mod_idemp_l by lia.
  pose proof (mod_shift n _ _ (- a) Hn Q1) as Q4. replace (a + - a) with 0 in Q4 by lia. rewrite <- Q4. rewrite Z.mod_0_l by lia. reflexivity.
Qed.

(* the six directions in which sides run, and where the side of quad (i, j) starts *)
Definition dirs : list ((Z * Z) * (Z * Z)) :=
  [((-1, -1), (1, 0)); ((0, -1), (0, 1)); ((0, 0), (-1, -1)); ((0, 0), (-1, 0)); ((-1, 0), (0, -1)); ((-1, -1), (1, 1))].
Definition walk (i j : Z) (d : (Z * Z) * (Z * Z)) : Z * Z :=
  let '((oi, oj), (di, dj)) := d in (vx (i + oi) (j + oj), vx (i + oi + di) (j + oj + dj)).
Lemma directed_quad i j : directed (quad i j) = map (walk i j) dirs.
Proof.
  cbn. replace (i + 0) with i by lia. replace (j + 0) with j by lia.
  replace (i + -1 + 1) with i by lia. replace (j + -1 + 1) with j by lia. replace (i + -1 + 0) with (i - 1) by lia. replace (j + -1 + 0) with (j - 1) by lia.
  replace (i + 0) with i by lia. replace (j + 0) with j by lia. replace (i + -1) with (i - 1) by lia. replace (j + -1) with (j - 1) by lia. reflexivity.
Qed.
Definition keys : list (Z * Z * ((Z * Z) * (Z * Z))) := list_prod (list_prod (range rings) (range sides)) dirs.
Lemma flat_prod {A B C} (f : A -> B -> list C) l l' : flat_map (fun x => flat_map (f x) l') l = flat_map (fun q => f (fst q) (snd q)) (list_prod l l').
Proof.
  induction l as [|x l IH]; cbn; [reflexivity|]. rewrite flat_map_app, IH. f_equal. rewrite (flat_map_concat_map _ (map _ _)), map_map, <- flat_map_concat_map. reflexivity.
Qed.
Lemma directed_keys : directed (torus_faces sides rings) = map (fun k => walk (fst (fst k)) (snd (fst k)) (snd k)) keys.
Proof.
  rewrite faces_quads. unfold directed at 1. rewrite flat_map_flat.
  rewrite (flat_map_ext _ (fun i => flat_map (fun j => map (walk i j) dirs) (range sides))).
  2: { intros i. rewrite flat_map_flat. apply flat_map_ext. intros j. apply directed_quad. }
  rewrite (flat_prod (fun i j => map (walk i j) dirs)). unfold keys. induction (list_prod (range rings) (range sides)) as [|q l IH]; [reflexivity|].
  cbn [flat_map list_prod]. rewrite map_app, IH. reflexivity.
Qed.
Lemma nodup_prod {A B} (l : list A) (l' : list B) : NoDup l -> NoDup l' -> NoDup (list_prod l l').
Proof.
  intros N N'. induction N as [|x l Hx N IH]; cbn; [constructor|]. apply nodup_app; [|exact IH|].
  - apply nodup_map_in; [exact N'|]. intros; congruence.
  - intros (u, v) H1 H2. apply in_map_iff in H1. destruct H1 as (y & Q & _). injection Q as -> ->. apply in_prod_iff in H2. tauto.
Qed.
Lemma step_mod n d d' : 3 <= n -> -1 <= d <= 1 -> -1 <= d' <= 1 -> d mod n = d' mod n -> d = d'.
Proof. intros Hn Hd Hd' Q. eapply mod_close; [|exact Q|]; lia. Qed.

Hypothesis Hs3 : 3 <= sides.
Hypothesis Hr3 : 3 <= rings.
(* where a side starts and where it goes, from its two vertices *)
Lemma walk_inj i j d i' j' d' : 0 <= i < rings -> 0 <= j < sides -> 0 <= i' < rings -> 0 <= j' < sides -> In d dirs -> In d' dirs ->
  walk i j d = walk i' j' d' -> i = i' /\ j = j' /\ d = d'.
Proof.
  intros Hi Hj Hi' Hj' Hd Hd' Q. destruct d as ((oi, oj), (di, dj)), d' as ((oi', oj'), (di', dj')). cbn in Q. injection Q as Q1 Q2.
  apply vx_inj in Q1, Q2. destruct Q1 as (A1 & B1), Q2 as (A2 & B2).
  pose proof (mod_unshift _ _ _ _ _ Hr A1 A2) as A3. pose proof (mod_unshift _ _ _ _ _ Hs B1 B2) as B3.
  assert (D : -1 <= di <= 1 /\ -1 <= dj <= 1 /\ -1 <= di' <= 1 /\ -1 <= dj' <= 1).
  { cbn in Hd, Hd'. repeat (destruct Hd as [Hd|Hd]; [injection Hd as <- <- <- <-; repeat (destruct Hd' as [Hd'|Hd']; [injection Hd' as <- <- <- <-; lia|]); destruct Hd'|]). destruct Hd. }
  assert (di = di') by (eapply step_mod; [exact Hr3| | |exact A3]; lia). assert (dj = dj') by (eapply step_mod; [exact Hs3| | |exact B3]; lia).
  assert (O : oi = oi' /\ oj = oj').
  { subst di' dj'. clear - Hd Hd'. cbn in Hd, Hd'. repeat (destruct Hd as [Hd|Hd]; [injection Hd as <- <- <- <-; repeat (destruct Hd' as [Hd'|Hd']; [injection Hd'; lia|]); destruct Hd'|]). destruct Hd. }
  destruct O as (<- & <-). subst di' dj'.
  pose proof (mod_shift _ _ _ (- oi) Hr A1) as A4. pose proof (mod_shift _ _ _ (- oj) Hs B1) as B4.
  replace (i + oi + - oi) with i in A4 by lia. replace (i' + oi + - oi) with i' in A4 by lia. replace (j + oj + - oj) with j in B4 by lia. replace (j' + oj + - oj) with j' in B4 by lia.
  rewrite !Z.mod_small in A4, B4 by lia. auto.
Qed.
Lemma in_keys i j d : In (i, j, d) keys <-> (0 <= i < rings /\ 0 <= j < sides) /\ In d dirs.
Proof. unfold keys. rewrite !in_prod_iff, !in_range_iff. tauto. Qed.
Lemma torus_nodup : NoDup (directed (torus_faces sides rings)).
Proof.
  rewrite directed_keys. apply nodup_map_in.
  - unfold keys. apply nodup_prod; [apply nodup_prod; apply range_nodup|]. unfold dirs. repeat constructor; cbn; intros H; repeat (destruct H as [H|H]; [discriminate H|]); exact H.
  - intros ((i, j), d) ((i', j'), d') H H' Q. apply in_keys in H, H'. cbn [fst snd] in Q.
    destruct (walk_inj i j d i' j' d') as (-> & -> & ->); tauto.
Qed.
Definition steps : list (Z * Z) := [(1, 0); (0, 1); (-1, -1); (-1, 0); (0, -1); (1, 1)].
Lemma torus_sides u v : In (u, v) (directed (torus_faces sides rings)) <-> exists i j di dj, In (di, dj) steps /\ (u, v) = (vx i j, vx (i + di) (j + dj)).
Proof.
  rewrite directed_keys, in_map_iff. split.
  - intros (((i, j), ((oi, oj), (di, dj))) & Q & H). apply in_keys in H. destruct H as (_ & H). cbn [fst snd walk] in Q. exists (i + oi), (j + oj), di, dj. split; [|symmetry; exact Q].
    cbn in H |- *. repeat (destruct H as [H|H]; [injection H as <- <- <- <-; tauto|]). destruct H.
  - intros (i & j & di & dj & H & Q). assert (K : exists oi oj, In ((oi, oj), (di, dj)) dirs).
    { cbn in H |- *. repeat (destruct H as [H|H]; [injection H as <- <-; do 2 eexists; tauto|]). destruct H. }
    destruct K as (oi & oj & K). exists ((i - oi) mod rings, (j - oj) mod sides, ((oi, oj), (di, dj))). rewrite in_keys. split.
    + rewrite Q. cbn [fst snd walk]. unfold vx.
      assert (M : forall n a o d, 0 < n -> ((a - o) mod n + o) mod n = a mod n /\ ((a - o) mod n + o + d) mod n = (a + d) mod n).
      { intros n a o d Hn. assert (X : ((a - o) mod n + o) mod n = a mod n) by (rewrite Z.add_mod_idemp_l by lia; f_equal; lia). split; [exact X|]. apply mod_shift; assumption. }
      destruct (M rings i oi di Hr) as (M1 & M2), (M sides j oj dj Hs) as (M3 & M4). rewrite M1, M2, M3, M4. reflexivity.
    + split; [|exact K]. split; apply Z.mod_pos_bound; assumption.
Qed.
Theorem torus_closed : closed_surface (torus_faces sides rings).
Proof.
  split; [exact torus_nodup|]. intros u v H. apply torus_sides in H. destruct H as (i & j & di & dj & H & Q). injection Q as -> ->. split.
  - intros Q. apply vx_inj in Q. destruct Q as (Q1 & Q2).
    assert (D : -1 <= di <= 1 /\ -1 <= dj <= 1 /\ (di <> 0 \/ dj <> 0)).
    { cbn in H. repeat (destruct H as [H|H]; [injection H as <- <-; lia|]). destruct H. }
    assert (i = i + di) by (eapply mod_close; [exact Hr|exact Q1|lia]). assert (j = j + dj) by (eapply mod_close; [exact Hs|exact Q2|lia]). lia.
  - apply torus_sides. exists (i + di), (j + dj), (- di), (- dj). split.
    + cbn in H |- *. repeat (destruct H as [H|H]; [injection H as <- <-; tauto|]). destruct H.
    + f_equal; f_equal; lia.
Qed.
Lemma torus_face_form f : In f (torus_faces sides rings) -> exists i j, f = (vx (i - 1) (j - 1), vx i (j - 1), vx i j) \/ f = (vx i j, vx (i - 1) j, vx (i - 1) (j - 1)).
Proof.
  rewrite faces_quads, in_flat_map. intros (i & _ & H). apply in_flat_map in H. destruct H as (j & _ & H). cbn in H. exists i, j. destruct H as [<-|[<-|[]]]; auto.
Qed.
End Grid.

Lemma torus_good sides rings r R : 0 < sides -> 0 < rings -> good_mesh (torus_verts r R sides rings, torus_faces sides rings) /\
  length (torus_verts r R sides rings) = Z.to_nat (rings * sides) /\ length (torus_faces sides rings) = Z.to_nat (2 * rings * sides).
Proof.
  intros Hs Hr. assert (L : length (torus_verts r R sides rings) = Z.to_nat (rings * sides)).
  { unfold torus_verts. rewrite (flat_length _ (Z.to_nat sides)); [rewrite range_length; lia|]. intros i _. rewrite map_length, range_length. reflexivity. }
  split; [|split; [exact L|]].
  - unfold good_mesh. cbn [fst snd]. rewrite L. apply Forall_forall. intros f Hf. apply torus_face_form in Hf. destruct Hf as (i & j & Q).
    assert (V : forall i j, 0 <= vx sides rings i j < Z.of_nat (Z.to_nat (rings * sides))) by (intros i' j'; pose proof (vx_range sides rings Hs Hr i' j'); lia).
    destruct Q as [-> | -> ]; cbn; auto.
  - rewrite faces_quads. rewrite (flat_length _ (Z.to_nat sides * 2)%nat); [rewrite range_length; lia|]. intros i _. rewrite (flat_length _ 2%nat); [rewrite range_length; lia|]. reflexivity.
Qed.

Lemma torus_vertex r R sides rings v : In v (torus_verts r R sides rings) -> on_torus r R v.
Proof.
  unfold torus_verts. rewrite in_flat_map. intros (i & _ & H). apply in_map_iff in H. destruct H as (j & <- & _).
  set (phi := (2 * PI * IZR i / IZR rings)%R). set (theta := (2 * PI * IZR j / IZR sides)%R). exists phi. cbn zeta. split; [cbn; ring|].
  unfold norm3. rewrite <- sqrt_Rsqr_abs. f_equal. unfold Rsqr, dot3, sub3. cbn [x3 y3 z3].
  pose proof (sin2_cos2 phi) as P1. pose proof (sin2_cos2 theta) as P2. unfold Rsqr in P1, P2.
  replace (((R + r * cos theta) * cos phi - R * cos phi) * ((R + r * cos theta) * cos phi - R * cos phi) +
    ((R + r * cos theta) * sin phi - R * sin phi) * ((R + r * cos theta) * sin phi - R * sin phi) + (r * sin theta - 0) * (r * sin theta - 0))%R
    with (r * r * (cos theta * cos theta * (sin phi * sin phi + cos phi * cos phi) + sin theta * sin theta))%R by ring.
  rewrite P1. replace (cos theta * cos theta * 1 + sin theta * sin theta)%R with (sin theta * sin theta + cos theta * cos theta)%R by ring. rewrite P2. ring.
Qed.
Lemma torus_flip sides rings : 3 <= sides -> 3 <= rings -> one_sided (torus_faces sides rings).
Proof.
  intros Hs Hr f g Hf Hg S. assert (Hs0 : 0 < sides) by lia. assert (Hr0 : 0 < rings) by lia.
  apply torus_face_form in Hf. apply torus_face_form in Hg. destruct Hf as (i & j & Q), Hg as (i' & j' & Q').
  assert (St : forall n d d', 3 <= n -> -1 <= d <= 1 -> -1 <= d' <= 1 -> d mod n = d' mod n -> d = d') by (intros n d d' H H1 H2 H3; eapply step_mod; eassumption).
  (* differences of vertices of a face, from the first to the second and from the second to the third *)
  assert (Df : forall a b c d a' b' c' d', vx sides rings a b = vx sides rings a' b' -> vx sides rings c d = vx sides rings c' d' ->
    -1 <= c - a <= 1 -> -1 <= d - b <= 1 -> -1 <= c' - a' <= 1 -> -1 <= d' - b' <= 1 -> c - a = c' - a' /\ d - b = d' - b').
  { intros a b c d a' b' c' d' E1 E2 H1 H2 H3 H4. apply vx_inj in E1; [|assumption..]. apply vx_inj in E2; [|assumption..]. destruct E1 as (A1 & B1), E2 as (A2 & B2). split.
    - apply (St rings); try assumption. apply (mod_unshift rings a a' (c - a) (c' - a') Hr0 A1). replace (a + (c - a)) with c by lia. replace (a' + (c' - a')) with c' by lia. exact A2.
    - apply (St sides); try assumption. apply (mod_unshift sides b b' (d - b) (d' - b') Hs0 B1). replace (b + (d - b)) with d by lia. replace (b' + (d' - b')) with d' by lia. exact B2. }
  destruct Q as [-> | -> ], Q' as [-> | -> ]; cbn [flip same_face] in S; destruct S as [S|[S|S]]; injection S as E1 E2 E3;
    (pose proof (Df _ _ _ _ _ _ _ _ E1 E2 ltac:(lia) ltac:(lia) ltac:(lia) ltac:(lia)); pose proof (Df _ _ _ _ _ _ _ _ E2 E3 ltac:(lia) ltac:(lia) ltac:(lia) ltac:(lia)); lia).
Qed.

Theorem torus_ok argsort r R sides rings : sorts argsort -> 3 <= sides -> 3 <= rings -> exists m p, torus r R sides rings = Ok m /\ reachable argsort m (from_lists [p]) /\
  length (fst p) = Z.to_nat (rings * sides) /\ length (snd p) = Z.to_nat (2 * rings * sides) /\
  good_mesh p /\ closed_surface (snd p) /\ one_sided (snd p) /\ (forall E, edge_list (snd p) E -> euler p E = 0) /\ Forall (on_torus r R) (fst p).
Proof.
  intros Hsort Hs Hr. destruct (torus_good sides rings r R ltac:(lia) ltac:(lia)) as (G & L1 & L2).
  destruct (new_one argsort Hsort (torus_verts r R sides rings, torus_faces sides rings) G) as (m & E & Rm).
  { cbn [snd]. intros C. rewrite C in L2. cbn [length] in L2. assert (0 < 2 * rings * sides) by nia. lia. }
  exists m, (torus_verts r R sides rings, torus_faces sides rings). unfold torus. destruct (Z.ltb_spec 0 sides) as [_|L]; [|lia]. destruct (Z.ltb_spec 0 rings) as [_|L]; [|lia].
  pose proof (torus_closed sides rings ltac:(lia) ltac:(lia) Hs Hr) as C. cbn [fst snd negb].
  split; [exact E|]. split; [exact Rm|]. split; [exact L1|]. split; [exact L2|]. split; [exact G|]. split; [exact C|]. split; [apply torus_flip; assumption|]. split.
  - intros Ed HE. pose proof (closed_edges _ _ C HE) as Q. unfold euler. cbn [fst snd]. rewrite L1, L2 in *. assert (0 < rings * sides) by nia. assert (Z.to_nat (2 * rings * sides) = (2 * Z.to_nat (rings * sides))%nat) by (rewrite <- Z.mul_assoc; lia). lia.
  - apply Forall_forall. intros v. apply torus_vertex.
Qed.
(* also with one or two sides or rings there is a mesh, with all vertices in place *)
Theorem torus_counts argsort r R sides rings : sorts argsort -> 0 < sides -> 0 < rings -> exists m p, torus r R sides rings = Ok m /\ reachable argsort m (from_lists [p]) /\
  length (fst p) = Z.to_nat (rings * sides) /\ length (snd p) = Z.to_nat (2 * rings * sides) /\ Forall (on_torus r R) (fst p).
Proof.
  intros Hsort Hs Hr. destruct (torus_good sides rings r R ltac:(lia) ltac:(lia)) as (G & L1 & L2).
  destruct (new_one argsort Hsort (torus_verts r R sides rings, torus_faces sides rings) G) as (m & E & Rm).
  { cbn [snd]. intros C. rewrite C in L2. cbn [length] in L2. assert (0 < 2 * rings * sides) by nia. lia. }
  exists m, (torus_verts r R sides rings, torus_faces sides rings). unfold torus. destruct (Z.ltb_spec 0 sides) as [_|L]; [|lia]. destruct (Z.ltb_spec 0 rings) as [_|L]; [|lia].
  cbn [fst snd negb]. split; [exact E|]. split; [exact Rm|]. split; [exact L1|]. split; [exact L2|]. apply Forall_forall. intros v. apply torus_vertex.
Qed.
Theorem torus_fails r R sides rings : sides <= 0 \/ rings <= 0 -> torus r R sides rings = Fail EValue.
Proof. intros H. unfold torus. destruct (Z.ltb_spec 0 sides); [|reflexivity]. destruct (Z.ltb_spec 0 rings); [lia|reflexivity]. Qed.
