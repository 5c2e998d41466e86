(* Range, zero set and invariances of the loss. *)
From Coq Require Import Permutation Psatz.
From Verif Require Import Base Packing RBase Geom GeomProofs FaceAreas FaceAreasSpec Meshes MeshesSpec Laplace LaplaceSpec LaplaceProofs LaplaceProofs2 LaplaceProofs5 Consistency ConsistencySpec ConsistencyProofs ConsistencyProofs2 ConsistencyProofs3.
Local Open Scope R_scope.

(* ---- cosine ---- *)
Lemma norm_neg w : norm3 (neg3 w) = norm3 w.
Proof. destruct w as [a b c]. unfold norm3, neg3, scal3, dot3. cbn [x3 y3 z3]. f_equal. ring. Qed.
Lemma dot_neg u v : dot3 u (neg3 v) = - dot3 u v.
Proof. destruct u as [a b c], v as [d e f]. unfold neg3, scal3, dot3. cbn [x3 y3 z3]. ring. Qed.
Lemma lagrange u v : dot3 u u * dot3 v v - dot3 u v * dot3 u v = dot3 (cross3 u v) (cross3 u v).
Proof. destruct u as [a b c], v as [d e f]. unfold dot3, cross3. cbn [x3 y3 z3]. ring. Qed.
Lemma self_nonneg u : 0 <= dot3 u u.
Proof. destruct u as [a b c]. unfold dot3. cbn [x3 y3 z3]. nra. Qed.
Lemma schwarz u v : dot3 u v <= norm3 u * norm3 v.
Proof.
  pose proof (norm3_nonneg u) as Nu. pose proof (norm3_nonneg v) as Nv. pose proof (norm3_sq u) as Su. pose proof (norm3_sq v) as Sv. pose proof (lagrange u v) as L. pose proof (self_nonneg (cross3 u v)) as C.
  apply Rnot_lt_le. intros H. assert (0 <= norm3 u * norm3 v) by nra. assert (dot3 u v * dot3 u v <= (norm3 u * norm3 v) * (norm3 u * norm3 v)) by nra. nra.
Qed.
Lemma eps_pos : 0 < kEps.
Proof. unfold kEps. apply Rinv_0_lt_compat. lra. Qed.
Lemma rmax_pos x : 0 < Rmax x kEps.
Proof. eapply Rlt_le_trans; [apply eps_pos|apply Rmax_r]. Qed.
Lemma cosine_le u v : cosine u v <= 1.
Proof.
  unfold cosine. pose proof (rmax_pos (norm3 u)) as Pu. pose proof (rmax_pos (norm3 v)) as Pv. assert (P : 0 < Rmax (norm3 u) kEps * Rmax (norm3 v) kEps) by nra.
  apply (Rmult_le_reg_r _ _ _ P). unfold Rdiv. rewrite Rmult_assoc, Rinv_l by lra. rewrite Rmult_1_r, Rmult_1_l. eapply Rle_trans; [apply schwarz|]. apply Rmult_le_compat; try apply norm3_nonneg; apply Rmax_l.
Qed.
Lemma cosine_neg u v : cosine u (neg3 v) = - cosine u v.
Proof. unfold cosine. rewrite dot_neg, norm_neg. unfold Rdiv. ring. Qed.
Lemma bend_range vs h : 0 <= bend vs h <= 2.
Proof.
  unfold bend. pose proof (cosine_le (wing vs (fst h)) (neg3 (wing vs (snd h)))) as H1. rewrite cosine_neg in *. pose proof (cosine_le (wing vs (fst h)) (wing vs (snd h))). lra.
Qed.
Lemma cross_zero u v : cross3 u v = V3 0 0 0 -> dot3 u u <> 0 -> v = scal3 (dot3 u v / dot3 u u) u.
Proof.
  destruct u as [a b c], v as [d e f]. unfold cross3, dot3, scal3. cbn [x3 y3 z3]. intros E N. injection E as E1 E2 E3.
  assert (D : forall x y, x * (a * a + b * b + c * c) - (a * d + b * e + c * f) * y = 0 -> x = (a * d + b * e + c * f) / (a * a + b * b + c * c) * y).
  { intros x y H. apply (Rmult_eq_reg_r (a * a + b * b + c * c)); [|exact N]. transitivity ((a * d + b * e + c * f) * y); [lra|]. field. exact N. }
  f_equal; apply D.
  - replace (d * (a * a + b * b + c * c) - (a * d + b * e + c * f) * a) with (- b * (a * e - b * d) + c * (c * d - a * f)) by ring. rewrite E2, E3. ring.
  - replace (e * (a * a + b * b + c * c) - (a * d + b * e + c * f) * b) with (a * (a * e - b * d) - c * (b * f - c * e)) by ring. rewrite E1, E3. ring.
  - replace (f * (a * a + b * b + c * c) - (a * d + b * e + c * f) * c) with (b * (b * f - c * e) - a * (c * d - a * f)) by ring. rewrite E1, E2. ring.
Qed.
Lemma dot_self_zero u : dot3 u u = 0 -> u = V3 0 0 0.
Proof. destruct u as [a b c]. unfold dot3. cbn [x3 y3 z3]. intros H. f_equal; nra. Qed.
Lemma cosine_one u v : cosine u v = 1 <-> kEps <= norm3 u /\ kEps <= norm3 v /\ exists t, 0 < t /\ v = scal3 t u.
Proof.
  pose proof eps_pos as Pe. pose proof (norm3_nonneg u) as Nu. pose proof (norm3_nonneg v) as Nv. pose proof (norm3_sq u) as Su. pose proof (norm3_sq v) as Sv. split.
  - intros H. unfold cosine in H. pose proof (rmax_pos (norm3 u)) as Pu. pose proof (rmax_pos (norm3 v)) as Pv. assert (P : 0 < Rmax (norm3 u) kEps * Rmax (norm3 v) kEps) by nra.
    assert (E : dot3 u v = Rmax (norm3 u) kEps * Rmax (norm3 v) kEps). { apply (Rmult_eq_reg_r (/ (Rmax (norm3 u) kEps * Rmax (norm3 v) kEps))); [|apply Rinv_neq_0_compat; lra]. rewrite Rinv_r by lra. exact H. }
    pose proof (schwarz u v) as S. assert (K : kEps <= norm3 u /\ kEps <= norm3 v).
    { unfold Rmax in E, Pu, Pv. destruct (Rle_dec (norm3 u) kEps), (Rle_dec (norm3 v) kEps); split; try nra. }
    destruct K as (Ku & Kv). split; [exact Ku|]. split; [exact Kv|]. rewrite !Rmax_left in E by assumption.
    assert (C : cross3 u v = V3 0 0 0) by (apply dot_self_zero; rewrite <- lagrange, <- Su, <- Sv, E; ring).
    assert (D : 0 < dot3 u u) by (rewrite <- Su; nra). exists (dot3 u v / dot3 u u). split; [apply Rdiv_lt_0_compat; [rewrite E; nra|exact D]|]. apply cross_zero; [exact C|lra].
  - intros (Ku & Kv & t & Ht & E). unfold cosine. rewrite !Rmax_left by assumption.
    assert (Ev : norm3 v = t * norm3 u). { apply Rsqr_inj; [exact Nv|nra|]. unfold Rsqr. rewrite Sv. replace (t * norm3 u * (t * norm3 u)) with (t * t * (norm3 u * norm3 u)) by ring. rewrite Su, E. destruct u as [a b c]. unfold dot3, scal3. cbn [x3 y3 z3]. ring. }
    assert (Ed : dot3 u v = t * (norm3 u * norm3 u)) by (rewrite Su, E; destruct u as [a b c]; unfold dot3, scal3; cbn [x3 y3 z3]; ring).
    rewrite Ed, Ev. field. split; lra.
Qed.
Lemma bend_zero vs h : bend vs h = 0 <-> flat vs h.
Proof.
  unfold bend, flat. rewrite <- (norm_neg (wing vs (snd h))). rewrite <- cosine_one. split; lra.
Qed.
Lemma consistency_zero b : 0 <= consistency b <= 2 /\ (consistency b = 0 <-> forall p h, In p b -> In h (hinges (snd p)) -> flat (fst p) h).
Proof.
  unfold consistency. assert (N : forall p, Forall (fun x => 0 <= x) (map (bend (fst p)) (hinges (snd p)))) by (intros p; apply Forall_map, Forall_forall; intros h _; apply bend_range).
  assert (N2 : Forall (fun x => 0 <= x) (map (fun p => mean (map (bend (fst p)) (hinges (snd p)))) b)) by (apply Forall_map, Forall_forall; intros p _; apply mean_nonneg, N).
  assert (M : forall l, Forall (fun x => x <= 2) l -> mean l <= 2).
  { intros l H. unfold mean. destruct l as [|x l]; [lra|]. assert (P : 0 < INR (length (x :: l))) by (apply lt_0_INR; cbn; lia). apply (Rmult_le_reg_r _ _ _ P). unfold Rdiv. rewrite Rmult_assoc, Rinv_l by lra. rewrite Rmult_1_r. clear P. induction H as [|y l' Hy H IH]; [rewrite rsum_nil; cbn; lra|]. rewrite rsum_cons. cbn [length]. rewrite S_INR. lra. }
  split; [split|].
  - apply mean_nonneg, N2.
  - apply M. apply Forall_map, Forall_forall. intros p _. apply M. apply Forall_map, Forall_forall. intros h _. apply bend_range.
  - rewrite mean_zero by exact N2. rewrite Forall_map, Forall_forall. split.
    + intros H p h Hp Hh. specialize (H p Hp). apply (mean_zero _ (N p)) in H. rewrite Forall_map, Forall_forall in H. apply bend_zero, H, Hh.
    + intros H p Hp. apply (mean_zero _ (N p)). apply Forall_map, Forall_forall. intros h Hh. apply bend_zero. auto.
Qed.
(* ---- rigid motions ---- *)
Lemma cross_dot a b c d : dot3 (cross3 a b) (cross3 c d) = dot3 a c * dot3 b d - dot3 a d * dot3 b c.
Proof. destruct a as [a1 a2 a3], b as [b1 b2 b3], c as [c1 c2 c3], d as [d1 d2 d3]. unfold dot3, cross3. cbn [x3 y3 z3]. ring. Qed.
Lemma consistency_rigid g b : rigid g -> Forall good_mesh b -> consistency (moved g b) = consistency b.
Proof.
  intros (l & t & Hg & Ha & Hsc & Hn) Hb. unfold consistency, moved. rewrite map_map. f_equal. apply map_ext_in. intros p Hp. cbn [fst snd]. f_equal. apply map_ext_in. intros h Hh.
  rewrite Forall_forall in Hb. specialize (Hb p Hp). unfold hinges in Hh. apply filter_In in Hh as [Hh _].
  assert (I : In (fst h) (mesh_touches (snd p)) /\ In (snd h) (mesh_touches (snd p))).
  { clear - Hh. unfold mesh_touches. induction (flat_map touches (snd p)) as [|x l IH]; [easy|]. cbn [two_of] in Hh. apply in_app_iff in Hh as [Hh|Hh]; [apply in_map_iff in Hh as (y & <- & Hy); cbn; auto|]. destruct (IH Hh). cbn. auto. }
  destruct I as (I1 & I2). apply (touch_range _ _ _ Hb) in I1, I2.
  assert (Dl : forall u v, dot3 (l u) (l v) = dot3 u v) by (apply l_dot; assumption).
  assert (Dg : forall u v w z, dot3 (sub3 (g u) (g v)) (sub3 (g w) (g z)) = dot3 (sub3 u v) (sub3 w z)).
  { intros u v w z. rewrite !Hg, !(g_sub l t Ha Hsc). apply Dl. }
  assert (At : forall z, (0 <= z < Z.of_nat (length (fst p)))%Z -> at_ (map g (fst p)) z = g (at_ (fst p) z)).
  { intros z Hz. unfold at_. rewrite (nth_indep _ (V3 0 0 0) (g (V3 0 0 0))) by (rewrite map_length; lia). apply (map_nth g). }
  assert (W : forall x y, In x [fst h; snd h] -> In y [fst h; snd h] -> dot3 (wing (map g (fst p)) x) (wing (map g (fst p)) y) = dot3 (wing (fst p) x) (wing (fst p) y)).
  { intros x y Hx Hy. unfold wing, tri_cross. rewrite !cross_dot. destruct Hx as [<-|[<-|[]]], Hy as [<-|[<-|[]]]; rewrite !At by lia; rewrite !Dg; reflexivity. }
  unfold bend. rewrite !cosine_neg. unfold cosine, norm3. rewrite !W by (cbn; auto). reflexivity.
Qed.
(* ---- the way faces are listed ---- *)
Lemma low_high_sym a b : low_high (a, b) = low_high (b, a).
Proof. unfold low_high. cbn [fst snd]. now rewrite Z.min_comm, Z.max_comm. Qed.
Lemma touches_perm f f' : same_corners f f' -> Permutation (touches f) (touches f').
Proof.
  destruct f as [[a b] c], f' as [[a' b'] c']. cbn [same_corners]. intros H.
  set (T := fun l : list Z => match l with [a; b; c] => [(low_high (b, c), a); (low_high (c, a), b); (low_high (a, b), c)] | _ => [] end).
  assert (G : forall l l', Permutation l l' -> length l = 3%nat -> Permutation (T l) (T l')).
  { clear. intros l l' H L. 
    assert (S1 : forall a b c, Permutation (T [a; b; c]) (T [b; a; c])). { intros a b c. unfold T. rewrite (low_high_sym a c), (low_high_sym c b), (low_high_sym b a). apply perm_swap. }
    assert (S2 : forall a b c, Permutation (T [a; b; c]) (T [a; c; b])). { intros a b c. unfold T. rewrite (low_high_sym c b), (low_high_sym b a), (low_high_sym a c). apply perm_skip, perm_swap. }
    destruct l as [|a [|b [|c [|]]]]; try discriminate. clear L. pose proof (Permutation_length H) as L. destruct l' as [|a' [|b' [|c' [|]]]]; try discriminate. clear L.
    assert (In a [a'; b'; c']) by (eapply Permutation_in; [exact H|now left]).
    assert (Two : forall x y x' y' : Z, Permutation [x; y] [x'; y'] -> (x = x' /\ y = y') \/ (x = y' /\ y = x')). { intros x y x' y' P. apply Permutation_length_2 in P. tauto. }
    destruct H0 as [->|[->|[->|[]]]].
    - apply Permutation_cons_inv in H. destruct (Two _ _ _ _ H) as [[-> ->]|[-> ->]]; [reflexivity|apply S2].
    - assert (H' : Permutation (a :: [b; c]) (a :: [a'; c'])) by (rewrite H; apply perm_swap). apply Permutation_cons_inv in H'. destruct (Two _ _ _ _ H') as [[-> ->]|[-> ->]]; [apply S1|]. rewrite S2. apply S1.
    - assert (H' : Permutation (a :: [b; c]) (a :: [a'; b'])) by (rewrite H; symmetry; apply (Permutation_cons_append [a'; b'] a)). apply Permutation_cons_inv in H'. destruct (Two _ _ _ _ H') as [[-> ->]|[-> ->]]; [rewrite S1; apply S2|]. rewrite S2, S1. apply S2. }
  exact (G _ _ H eq_refl).
Qed.
Lemma relisted_touches fs fs' : relisted fs fs' -> Permutation (mesh_touches fs) (mesh_touches fs').
Proof.
  intros (gs & P & F). transitivity (mesh_touches gs); [now apply Permutation_flat_map|]. clear P. unfold mesh_touches. induction F as [|f f' gs fs' Hf F IH]; [reflexivity|]. cbn [flat_map]. apply Permutation_app; [now apply touches_perm|exact IH].
Qed.
Lemma consistency_relisted b b' : Forall2 (fun p p' => fst p = fst p' /\ relisted (snd p) (snd p')) b b' -> consistency b = consistency b'.
Proof.
  intros H. unfold consistency. f_equal. induction H as [|[vs fs] [vs' fs'] b b' (E & Hr) H IH]; [reflexivity|]. cbn [map fst snd] in *. subst vs'. rewrite IH. f_equal.
  apply relisted_touches in Hr.
  assert (S : forall phi, (forall x y, phi (x, y) = phi (y, x)) -> rsum (map phi (hinges fs)) = rsum (map phi (hinges fs'))).
  { intros phi Hp. rewrite !hinges_psum. apply psum_perm; [exact Hr|]. intros x y _ _. rewrite (Hp x y). replace (same_edge (y, x)) with (same_edge (x, y)); [reflexivity|]. destruct x as [[i j] c], y as [[i' j'] c']. unfold same_edge. now rewrite (Z.eqb_sym i), (Z.eqb_sym j). }
  assert (L : length (hinges fs) = length (hinges fs')). { apply INR_eq. rewrite <- !hinge_count, <- !hinges_psum. apply S. reflexivity. }
  pose proof (S (bend vs) (wing_sym_bend vs)) as Sb. unfold mean. destruct (hinges fs) as [|h l], (hinges fs') as [|h' l']; try discriminate; [reflexivity|]. cbn [map length] in *. rewrite !map_length, Sb. injection L as ->. reflexivity.
Qed.
(* ---- two faces and the angle between them ---- *)
Lemma tri_rot u v w : tri_cross v w u = tri_cross u v w.
Proof. destruct u as [a1 a2 a3], v as [b1 b2 b3], w as [c1 c2 c3]. unfold tri_cross, cross3, sub3. cbn [x3 y3 z3]. f_equal; ring. Qed.
Lemma tri_flip u v w : tri_cross v u w = neg3 (tri_cross u v w).
Proof. destruct u as [a1 a2 a3], v as [b1 b2 b3], w as [c1 c2 c3]. unfold tri_cross, cross3, sub3, neg3, scal3. cbn [x3 y3 z3]. f_equal; ring. Qed.
Lemma cosine_negneg u v : cosine (neg3 u) (neg3 v) = cosine u v.
Proof. rewrite cosine_neg. unfold cosine. rewrite norm_neg. replace (dot3 (neg3 u) v) with (- dot3 u v); [unfold Rdiv; ring|]. destruct u as [a b c], v as [d e f]. unfold dot3, neg3, scal3. cbn [x3 y3 z3]. ring. Qed.
Lemma neg_neg u : neg3 (neg3 u) = u.
Proof. destruct u as [a b c]. unfold neg3, scal3. cbn [x3 y3 z3]. f_equal; ring. Qed.
Lemma bend_opposite vs i j a c : bend vs (hinge_at i j a c) = 1 - cosine (tri_cross (at_ vs i) (at_ vs j) (at_ vs a)) (tri_cross (at_ vs j) (at_ vs i) (at_ vs c)).
Proof.
  unfold bend, hinge_at, wing, low_high. cbn [fst snd]. rewrite (tri_flip (at_ vs i) (at_ vs j) (at_ vs c)). f_equal.
  destruct (Z.le_ge_cases i j); [rewrite Z.min_l, Z.max_r by lia; reflexivity|]. rewrite Z.min_r, Z.max_l by lia. rewrite (tri_flip (at_ vs i) (at_ vs j) (at_ vs a)), (tri_flip (at_ vs i) (at_ vs j) (at_ vs c)). apply cosine_negneg.
Qed.
Lemma bend_same vs i j a c : bend vs (hinge_at i j a c) = 1 + cosine (tri_cross (at_ vs i) (at_ vs j) (at_ vs a)) (tri_cross (at_ vs i) (at_ vs j) (at_ vs c)).
Proof. rewrite bend_opposite, (tri_flip (at_ vs i) (at_ vs j) (at_ vs c)), cosine_neg. ring. Qed.
