(* The icosphere. *)
From Coq Require Import Lra Permutation.
From Verif Require Import Base Packing RBase Geom FaceAreas FaceAreasSpec Meshes MeshesSpec MeshesHistSpec Subdivide SubdivideSpec Shapes ShapesSpec.
From Verif Require Import GeomProofs MeshesProofs8 SubdivideProofs4 SubdivideProofs5 SubdivideProofs6 ShapesProofs ShapesProofs2.
Local Open Scope R_scope.

Definition unit_of (v : vec3) : vec3 := div3 v (norm3 v).
Definition triple (a b c : vec3) : R := dot3 a (tri_cross a b c).
Definition inflate (p : mesh) : mesh := (map unit_of (fst p), snd p).

Lemma norm_pos v : 0 < dot3 v v -> 0 < norm3 v.
Proof. intros H. unfold norm3. apply sqrt_lt_R0. exact H. Qed.
Lemma unit_norm v : 0 < dot3 v v -> norm3 (unit_of v) = 1.
Proof.
  intros H. assert (N := norm_pos v H). assert (S := norm3_sq v).
  assert (D : dot3 (unit_of v) (unit_of v) = 1).
  { unfold unit_of. destruct v as [a b c]. unfold dot3, div3 in *. cbn [x3 y3 z3] in *.
    replace (a / norm3 (V3 a b c) * (a / norm3 (V3 a b c)) + b / norm3 (V3 a b c) * (b / norm3 (V3 a b c)) + c / norm3 (V3 a b c) * (c / norm3 (V3 a b c)))
      with ((a * a + b * b + c * c) / (norm3 (V3 a b c) * norm3 (V3 a b c))) by (field; lra). rewrite S. field. lra. }
  unfold norm3 at 1. rewrite D. apply sqrt_1.
Qed.
Lemma unit_zero : unit_of (V3 0 0 0) = V3 0 0 0.
Proof. unfold unit_of, div3. cbn. unfold Rdiv. rewrite !Rmult_0_l. reflexivity. Qed.
Lemma unit_same v : norm3 v = 1 -> unit_of v = v.
Proof. intros H. unfold unit_of. rewrite H. destruct v. unfold div3. cbn. f_equal; field. Qed.
Lemma at_inflate p i : at_ (fst (inflate p)) i = unit_of (at_ (fst p) i).
Proof. unfold at_, inflate. cbn [fst]. rewrite <- unit_zero at 1. apply map_nth. Qed.
Lemma dot_units u v : 0 < dot3 u u -> 0 < dot3 v v -> dot3 (unit_of u) (unit_of v) = dot3 u v / (norm3 u * norm3 v).
Proof.
  intros Hu Hv. assert (Nu := norm_pos u Hu). assert (Nv := norm_pos v Hv). unfold unit_of, dot3, div3. cbn [x3 y3 z3]. field. lra.
Qed.
Lemma near_units u v : 0 < dot3 u u -> 0 < dot3 v v -> dot3 u u + dot3 v v <= 8 * dot3 u v -> / 4 <= dot3 (unit_of u) (unit_of v).
Proof.
  intros Hu Hv H. rewrite dot_units by assumption. assert (Nu := norm_pos u Hu). assert (Nv := norm_pos v Hv).
  assert (Su := norm3_sq u). assert (Sv := norm3_sq v).
  assert (Q : 0 <= (norm3 u - norm3 v) * (norm3 u - norm3 v)) by apply Rle_0_sqr.
  assert (P : 0 < norm3 u * norm3 v) by (apply Rmult_lt_0_compat; assumption).
  apply Rmult_le_reg_r with (norm3 u * norm3 v); [exact P|]. unfold Rdiv. rewrite (Rmult_assoc (dot3 u v)), Rinv_l by lra. lra.
Qed.
Lemma triple_units a b c : 0 < dot3 a a -> 0 < dot3 b b -> 0 < dot3 c c -> 0 < triple a b c -> 0 < triple (unit_of a) (unit_of b) (unit_of c).
Proof.
  intros Ha Hb Hc H. assert (Na := norm_pos a Ha). assert (Nb := norm_pos b Hb). assert (Nc := norm_pos c Hc).
  replace (triple (unit_of a) (unit_of b) (unit_of c)) with (triple a b c * / (norm3 a * norm3 b * norm3 c)).
  - apply Rmult_lt_0_compat; [exact H|]. apply Rinv_0_lt_compat. repeat apply Rmult_lt_0_compat; assumption.
  - unfold triple, tri_cross, unit_of, cross3, sub3, dot3, div3. cbn [x3 y3 z3]. field. lra.
Qed.
Lemma triple_corner a b c : triple a (midpoint a b) (midpoint c a) = triple a b c / 4.
Proof. unfold triple, tri_cross, midpoint, cross3, sub3, scal3, add3, dot3. cbn [x3 y3 z3]. field. Qed.
Lemma triple_inner a b c : triple (midpoint b c) (midpoint c a) (midpoint a b) = triple a b c / 4.
Proof. unfold triple, tri_cross, midpoint, cross3, sub3, scal3, add3, dot3. cbn [x3 y3 z3]. field. Qed.
Lemma triple_rot a b c : triple b c a = triple a b c.
Proof. unfold triple, tri_cross, cross3, sub3, dot3. cbn [x3 y3 z3]. ring. Qed.
Lemma dot_sym u v : dot3 u v = dot3 v u.
Proof. unfold dot3. ring. Qed.
Lemma dot_mid u v w : dot3 u (midpoint v w) = (dot3 u v + dot3 u w) / 2.
Proof. unfold midpoint, scal3, add3, dot3. cbn [x3 y3 z3]. field. Qed.
Lemma dot_mean u v : 2 * dot3 u v <= dot3 u u + dot3 v v.
Proof.
  assert (H := dot3_nonneg (sub3 u v)). replace (dot3 (sub3 u v) (sub3 u v)) with (dot3 u u + dot3 v v - 2 * dot3 u v) in H; [lra|].
  unfold sub3, dot3. cbn [x3 y3 z3]. ring.
Qed.

(* ---- the invariant ---- *)
Definition round (vs : list vec3) : Prop := Forall (fun v => 99 / 100 <= dot3 v v <= 101 / 100) vs.
Definition near (p : mesh) : Prop := forall u v, In (u, v) (directed (snd p)) -> / 4 <= dot3 (at_ (fst p) u) (at_ (fst p) v).
Definition sphere (p : mesh) : Prop :=
  good_mesh p /\ closed_surface (snd p) /\ one_sided (snd p) /\ round (fst p) /\ near p /\ Forall (outward (fst p)) (snd p).

Lemma outward_triple vs a b c : outward vs (a, b, c) <-> 0 < triple (at_ vs a) (at_ vs b) (at_ vs c).
Proof. reflexivity. Qed.
Lemma outward_rot vs f g : same_face f g -> outward vs f -> outward vs g.
Proof.
  destruct f as ((a, b), c). cbn [same_face]. intros [-> | [-> | -> ]]; rewrite !outward_triple; [auto| |].
  - intros H. rewrite triple_rot. exact H.
  - intros H. rewrite <- (triple_rot (at_ vs c) (at_ vs a) (at_ vs b)). exact H.
Qed.

Section Step.
Variables (p p1 : mesh) (E : list (Z * Z)).
Hypothesis HS : sphere p.
Hypothesis Hsub : subdivided p E p1.
Let V := Z.of_nat (length (fst p)).

Lemma round_at i : (0 <= i < V)%Z -> 99 / 100 <= dot3 (at_ (fst p) i) (at_ (fst p) i) <= 101 / 100.
Proof.
  intros H. destruct HS as (_ & _ & _ & Ro & _). unfold round in Ro. rewrite Forall_forall in Ro. apply Ro. unfold at_. apply nth_In. subst V. lia.
Qed.
(* a corner with its points *)
Lemma corner_points : exists t, Forall2 (opposite_edges E) (snd p) t /\
  snd p1 = map (at_a V) (combine (snd p) t) ++ map (at_b V) (combine (snd p) t) ++ map (at_c V) (combine (snd p) t) ++ map (inner V) (combine (snd p) t) /\
  forall q, In q (flat_map turns (combine (snd p) t)) -> let '((a, b, c), (i, j, k)) := q in
    let A := at_ (fst p) a in let B := at_ (fst p) b in let C := at_ (fst p) c in
    at_ (fst p1) a = A /\ at_ (fst p1) (V + i) = midpoint B C /\ at_ (fst p1) (V + j) = midpoint C A /\ at_ (fst p1) (V + k) = midpoint A B /\
    99 / 100 <= dot3 A A <= 101 / 100 /\ 99 / 100 <= dot3 B B <= 101 / 100 /\ 99 / 100 <= dot3 C C <= 101 / 100 /\
    / 4 <= dot3 A B /\ / 4 <= dot3 B C /\ / 4 <= dot3 C A /\ 0 < triple A B C.
Proof.
  pose proof Hsub as (HE & _ & t & HF & Hs). cbn zeta in Hs. exists t. split; [exact HF|]. split; [exact Hs|].
  intros q Hq. destruct HS as (G & HC & HO & Ro & Ne & Out).
  pose proof (C_fine p E t HF G q Hq) as Fq. destruct (C_face p E t HF G q Hq) as (f & Hf & Sf & _).
  destruct q as (((a, b), c), ((i, j), k)). destruct (C_sides p E t HF a b c i j k Hq) as (S1 & S2 & S3).
  destruct Fq as (((P1 & P2 & P3) & Hi & Hj & Hk) & (Ra & Rb & Rc)). cbn zeta.
  split; [apply (at_old _ _ _ _ Hsub); exact Ra|]. split; [apply (at_new _ _ _ _ _ _ Hsub); assumption|]. split; [apply (at_new _ _ _ _ _ _ Hsub); assumption|].
  split; [apply (at_new _ _ _ _ _ _ Hsub); assumption|].
  split; [apply round_at; exact Ra|]. split; [apply round_at; exact Rb|]. split; [apply round_at; exact Rc|].
  split; [apply Ne; exact S1|]. split; [apply Ne; exact S2|]. split; [apply Ne; exact S3|].
  rewrite Forall_forall in Out. specialize (Out f Hf). apply (outward_rot _ _ _ Sf) in Out. exact Out.
Qed.

Lemma step_round v : In v (fst p1) -> 0 < dot3 v v.
Proof.
  intros H. pose proof Hsub as (HE & Hv & _). rewrite Hv in H. unfold split_edges in H. apply in_app_iff in H. destruct HS as (G & HC & HO & Ro & Ne & Out).
  destruct H as [H|H].
  - unfold round in Ro. rewrite Forall_forall in Ro. specialize (Ro v H). lra.
  - apply in_map_iff in H. destruct H as ((a, b) & <- & H). cbn [fst snd]. apply (proj2 HE) in H. destruct H as (_ & f & Hf & Hs). apply side_directed in Hs. cbn [fst snd] in Hs.
    assert (S : In (a, b) (directed (snd p))) by (destruct Hs as [Hs|Hs]; [|apply HC]; apply in_flat_map; eauto).
    unfold good_mesh in G. rewrite Forall_forall in G. specialize (G f Hf).
    assert (In_r : (0 <= a < V /\ 0 <= b < V)%Z) by (subst V; destruct f as ((x, y), z); cbn in G, Hs; clear - G Hs; intuition congruence).
    pose proof (round_at a (proj1 In_r)) as Qa. pose proof (round_at b (proj2 In_r)) as Qb. pose proof (Ne _ _ S) as Qn. unfold at_ in Qa, Qb, Qn.
    rewrite dot_mid, (dot_sym (midpoint _ _)), (dot_sym (midpoint _ _) (nth (Z.to_nat b) _ _)), !dot_mid, (dot_sym (nth (Z.to_nat b) _ _)). lra.
Qed.

Lemma step_sphere : sphere (inflate p1).
Proof.
  pose proof HS as (G & HC & HO & _). destruct corner_points as (t & HF & Hs & K).
  split; [|split; [|split; [|split; [|split]]]].
  - destruct (subdivided_good _ _ _ G Hsub) as (G1 & _). unfold good_mesh, inflate in *. cbn [fst snd]. rewrite map_length. exact G1.
  - exact (subdivided_closed p E p1 G Hsub HC HO).
  - exact (subdivided_one_sided p E p1 G Hsub HC HO).
  - unfold round, inflate. cbn [fst]. apply Forall_forall. intros v Hv. apply in_map_iff in Hv. destruct Hv as (w & <- & Hw).
    rewrite <- norm3_sq, unit_norm by (apply step_round; exact Hw). lra.
  - intros u v Huv. cbn [snd inflate] in Huv. rewrite Hs in Huv. apply (Permutation_in _ (directed_new V _)) in Huv. apply in_flat_map in Huv. destruct Huv as (q & Hq & Hin).
    specialize (K q Hq). destruct q as (((a, b), c), ((i, j), k)). cbn zeta in K. rewrite !at_inflate.
    destruct K as (Ka & Ki & Kj & Kk & Qa & Qb & Qc & Nab & Nbc & Nca & _).
    set (A := at_ (fst p) a) in *. set (B := at_ (fst p) b) in *. set (C := at_ (fst p) c) in *.
    pose proof (dot_mean A B). pose proof (dot_mean B C). pose proof (dot_mean C A).
    assert (D1 : dot3 (midpoint A B) (midpoint A B) = (dot3 A A + 2 * dot3 A B + dot3 B B) / 4).
    { unfold midpoint, scal3, add3, dot3. cbn [x3 y3 z3]. field. }
    assert (D2 : dot3 (midpoint C A) (midpoint C A) = (dot3 C C + 2 * dot3 C A + dot3 A A) / 4).
    { unfold midpoint, scal3, add3, dot3. cbn [x3 y3 z3]. field. }
    assert (D3 : dot3 A (midpoint A B) = (dot3 A A + dot3 A B) / 2) by apply dot_mid.
    assert (D4 : dot3 (midpoint C A) A = (dot3 C A + dot3 A A) / 2) by (rewrite dot_sym, dot_mid, (dot_sym A C); reflexivity).
    assert (D5 : dot3 (midpoint A B) (midpoint C A) = (dot3 C A + dot3 A A + dot3 B C + dot3 A B) / 4).
    { unfold midpoint, scal3, add3, dot3. cbn [x3 y3 z3]. field. }
    cbn [four In] in Hin. destruct Hin as [Q|[Q|[Q|[Q|[]]]]]; injection Q as <- <-; rewrite ?Ka, ?Kj, ?Kk; apply near_units; rewrite ?(dot_sym (midpoint C A) (midpoint A B)); lra.
  - cbn [snd inflate]. apply Forall_forall. intros f Hf. rewrite Hs in Hf. apply new_faces in Hf. destruct Hf as (q & Hq & N).
    specialize (K q Hq). destruct q as (((a, b), c), ((i, j), k)). cbn zeta in K.
    destruct K as (Ka & Ki & Kj & Kk & Qa & Qb & Qc & Nab & Nbc & Nca & Tr).
    set (A := at_ (fst p) a) in *. set (B := at_ (fst p) b) in *. set (C := at_ (fst p) c) in *.
    assert (M : forall x y, 99 / 100 <= dot3 x x -> 99 / 100 <= dot3 y y -> / 4 <= dot3 x y -> 0 < dot3 (midpoint x y) (midpoint x y)).
    { intros x y Hx Hy Hxy. replace (dot3 (midpoint x y) (midpoint x y)) with ((dot3 x x + 2 * dot3 x y + dot3 y y) / 4); [lra|]. unfold midpoint, scal3, add3, dot3. cbn [x3 y3 z3]. field. }
    pose proof (M A B (proj1 Qa) (proj1 Qb) Nab). pose proof (M B C (proj1 Qb) (proj1 Qc) Nbc). pose proof (M C A (proj1 Qc) (proj1 Qa) Nca).
    destruct N as [N|N].
    + apply (outward_rot _ _ _ N). apply outward_triple. rewrite !at_inflate, Ka, Kj, Kk. apply triple_units; try assumption; [lra|]. rewrite triple_corner. lra.
    + subst f. apply outward_triple. rewrite !at_inflate, Ki, Kj, Kk. apply triple_units; try assumption. rewrite triple_inner. lra.
Qed.
Lemma step_unit : Forall (fun v => norm3 v = 1) (fst (inflate p1)).
Proof. cbn [inflate fst]. apply Forall_forall. intros v H. apply in_map_iff in H. destruct H as (w & <- & H). apply unit_norm, step_round, H. Qed.
Lemma step_counts : length (fst (inflate p1)) = (length (fst p) + length E)%nat /\ length (snd (inflate p1)) = (4 * length (snd p))%nat /\ (2 * length E = 3 * length (snd p))%nat.
Proof.
  pose proof HS as (G & HC & _). destruct (subdivided_good _ _ _ G Hsub) as (_ & L1 & L2). cbn [inflate fst snd]. rewrite map_length. split; [exact L1|]. split; [exact L2|].
  apply closed_edges; [exact HC|apply Hsub].
Qed.
End Step.
