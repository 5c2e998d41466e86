(* The pieces of one face: region, conversion of barycentric coordinates, orientation. *)
From Verif Require Import Base RBase Geom LinAlg Symeig Clip ClipSpec ClipProofs.
From Coq Require Import Psatz.
Local Open Scope R_scope.

(* ---- classification ---- *)
Lemma num_behind_le z f : (num_behind z f <= 3)%nat.
Proof. unfold num_behind, count_if, all3. cbn [filter]. destruct (behind z f I0), (behind z f I1), (behind z f I2); cbn; lia. Qed.
Lemma pick_one sel : count_if sel all3 = 1%nat ->
  filter sel all3 = [pick sel] /\ sel (pick sel) = true /\ sel (next (pick sel)) = false /\ sel (prev (pick sel)) = false.
Proof.
  unfold count_if, pick, all3. cbn [filter]. destruct (sel I0) eqn:E0, (sel I1) eqn:E1, (sel I2) eqn:E2; cbn; intros H; try discriminate H; repeat split; assumption.
Qed.
Lemma negb_count sel : (count_if (fun k => negb (sel k)) all3 + count_if sel all3 = 3)%nat.
Proof. unfold count_if, all3. cbn [filter]. destruct (sel I0), (sel I1), (sel I2); reflexivity. Qed.
Lemma behind_spec c f k : behind (Some c) f k = true <-> z3 (vert f k) < c.
Proof. unfold behind. destruct (Rltb_spec (z3 (vert f k)) c); split; try reflexivity; try discriminate; intros; try assumption; contradiction. Qed.
Lemma behind_spec' c f k : behind (Some c) f k = false <-> c <= z3 (vert f k).
Proof. unfold behind. destruct (Rltb_spec (z3 (vert f k)) c); split; try reflexivity; try discriminate; intros; lra. Qed.
Lemma count_zero sel k : count_if sel all3 = 0%nat -> sel k = false.
Proof. unfold count_if, all3. cbn [filter]. destruct (sel I0) eqn:E0, (sel I1) eqn:E1, (sel I2) eqn:E2; cbn; intros H; try discriminate H; destruct k; assumption. Qed.
Lemma count_three sel k : count_if sel all3 = 3%nat -> sel k = true.
Proof. unfold count_if, all3. cbn [filter]. destruct (sel I0) eqn:E0, (sel I1) eqn:E1, (sel I2) eqn:E2; cbn; intros H; try discriminate H; destruct k; assumption. Qed.

(* ---- linear facts ---- *)
Lemma weighted_add p f u v : weighted p f (add3 u v) = add3 (weighted p f u) (weighted p f v).
Proof. destruct f as [[a b] c]. unfold weighted. generalize (world p a), (world p b), (world p c). intros. unfold add3, scal3. cbn [x3 y3 z3]. apply V3_eq; ring. Qed.
Lemma weighted_scal p f t v : weighted p f (scal3 t v) = scal3 t (weighted p f v).
Proof. destruct f as [[a b] c]. unfold weighted. generalize (world p a), (world p b), (world p c). intros. unfold add3, scal3. cbn [x3 y3 z3]. apply V3_eq; ring. Qed.
Lemma weighted_axis p f i : weighted p f (axis3 i) = world p (vert f i).
Proof.
  destruct f as [[a b] c]. destruct i; cbn [vert axis3]; unfold weighted; cbn [x3 y3 z3]; generalize (world p a), (world p b), (world p c);
  intros u v t; destruct u, v, t; unfold add3, scal3; cbn; apply V3_eq; ring.
Qed.
Lemma stack_mul a b c w : mulv3 (stack2 a b c) w = add3 (add3 (scal3 (x3 w) a) (scal3 (y3 w) b)) (scal3 (z3 w) c).
Proof. unfold stack2, mulv3. m3r. apply V3_eq; ring. Qed.

Definition corner (p : bool) (f : face) (g b : vec3) : Prop := world p g = weighted p f b /\ total b = 1 /\ nonneg3 b.
Lemma corners_conv p f g0 g1 g2 b0 b1 b2 : corner p f g0 b0 -> corner p f g1 b1 -> corner p f g2 b2 ->
  forall w, weighted p (g0, g1, g2) w = weighted p f (mulv3 (stack2 b0 b1 b2) w) /\
    total (mulv3 (stack2 b0 b1 b2) w) = total w /\ (nonneg3 w -> nonneg3 (mulv3 (stack2 b0 b1 b2) w)).
Proof.
  intros (E0 & T0 & (X0 & Y0 & Z0)) (E1 & T1 & (X1 & Y1 & Z1)) (E2 & T2 & (X2 & Y2 & Z2)) w. rewrite stack_mul. split; [|split].
  - rewrite !weighted_add, !weighted_scal. unfold weighted at 1. rewrite E0, E1, E2. reflexivity.
  - unfold total in *. unfold add3, scal3. cbn [x3 y3 z3]. replace (x3 b0) with (1 - y3 b0 - z3 b0) by lra. replace (x3 b1) with (1 - y3 b1 - z3 b1) by lra.
    replace (x3 b2) with (1 - y3 b2 - z3 b2) by lra. ring.
  - intros (A & B & C). unfold nonneg3, add3, scal3. cbn [x3 y3 z3]. repeat split; repeat apply Rplus_le_le_0_compat; apply Rmult_le_pos; assumption.
Qed.
Lemma corners_normal p f g0 g1 g2 b0 b1 b2 : corner p f g0 b0 -> corner p f g1 b1 -> corner p f g2 b2 ->
  normal_of p (g0, g1, g2) = scal3 (det3 (stack2 b0 b1 b2)) (normal_of p f).
Proof.
  intros (E0 & T0 & _) (E1 & T1 & _) (E2 & T2 & _). unfold normal_of. rewrite E0, E1, E2. destruct f as [[a b] c]. unfold weighted.
  generalize (world p a), (world p b), (world p c). clear - T0 T1 T2. intros u v t. destruct b0 as [x0 y0 z0], b1 as [x1 y1 z1], b2 as [x2 y2 z2].
  unfold total in *. cbn [x3 y3 z3] in T0, T1, T2.
  assert (x0 = 1 - y0 - z0) by lra. assert (x1 = 1 - y1 - z1) by lra. assert (x2 = 1 - y2 - z2) by lra. subst x0 x1 x2. clear.
  destruct u as [ux uy uz], v as [vx vy vz], t as [tx ty tz].
  unfold stack2, det3, cross3, sub3, add3, scal3. cbn [x3 y3 z3 m00 m01 m02 m10 m11 m12 m20 m21 m22]. apply V3_eq; ring.
Qed.

Lemma axis_corner p f i : corner p f (vert f i) (axis3 i).
Proof. split; [symmetry; apply weighted_axis|]. unfold total, nonneg3. destruct i; cbn; lra. Qed.
Lemma cut_corner p f i j c : z3 (vert f i) <> z3 (vert f j) -> (p = true -> c <> 0) -> 0 <= cut_weight (vert f i) (vert f j) c <= 1 ->
  corner p f (cut_point (vert f i) (vert f j) c p)
    (add3 (scal3 (1 - cut_weight (vert f i) (vert f j) c) (axis3 i)) (scal3 (cut_weight (vert f i) (vert f j) c) (axis3 j))).
Proof.
  intros N C W. destruct (cut_world (vert f i) (vert f j) c p N C) as [E _]. set (w := cut_weight (vert f i) (vert f j) c) in *.
  split; [rewrite E, weighted_add, !weighted_scal, !weighted_axis; reflexivity|].
  clearbody w. unfold total, nonneg3, add3, scal3. destruct i, j; cbn [x3 y3 z3 axis3]; lra.
Qed.

Section Pieces.
  Variable fr : frustum.
  Hypothesis Dep : depth_ok fr.
  Let p := f_perspective fr.

  Lemma depth c : f_zclip fr = Some c -> p = true -> c <> 0.
  Proof. intros E P Z. apply (Dep P). rewrite E, Z. reflexivity. Qed.

  (* what is known of a face that is split *)
  Lemma pieces_cases f : culled fr f = false ->
    (pieces fr f = [(f, None)] /\ num_behind (f_zclip fr) f = 0%nat) \/
    (pieces fr f = [] /\ num_behind (f_zclip fr) f = 3%nat /\ exists c, f_zclip fr = Some c /\ forall k, z3 (vert f k) < c) \/
    (num_behind (f_zclip fr) f = 2%nat /\ exists c i, f_zclip fr = Some c /\ i = pick (fun k => negb (behind (f_zclip fr) f k)) /\
       filter (fun k => negb (behind (f_zclip fr) f k)) all3 = [i] /\
       c <= z3 (vert f i) /\ z3 (vert f (next i)) < c /\ z3 (vert f (prev i)) < c /\
       let P k := nth k (fst (cut_of fr c i f)) (V3 0 0 0) in let B k := nth k (snd (cut_of fr c i f)) (V3 0 0 0) in
       pieces fr f = [((P 3, P 4, P 0)%nat, Some (stack2 (B 3%nat) (B 4%nat) (B 0%nat)))]) \/
    (num_behind (f_zclip fr) f = 1%nat /\ exists c i, f_zclip fr = Some c /\ i = pick (behind (f_zclip fr) f) /\
       filter (behind (f_zclip fr) f) all3 = [i] /\
       z3 (vert f i) < c /\ c <= z3 (vert f (next i)) /\ c <= z3 (vert f (prev i)) /\
       let P k := nth k (fst (cut_of fr c i f)) (V3 0 0 0) in let B k := nth k (snd (cut_of fr c i f)) (V3 0 0 0) in
       pieces fr f = [((P 3, P 1, P 4)%nat, Some (stack2 (B 3%nat) (B 1%nat) (B 4%nat)));
                      ((P 4, P 1, P 2)%nat, Some (stack2 (B 4%nat) (B 1%nat) (B 2%nat)))]).
  Proof.
    intros K. unfold pieces. rewrite K. pose proof (num_behind_le (f_zclip fr) f) as L.
    destruct (num_behind (f_zclip fr) f) as [|[|[|[|n]]]] eqn:E; [| | | |lia].
    - left. split; reflexivity.
    - right; right; right. split; [reflexivity|]. destruct (f_zclip fr) as [c|] eqn:Z; [|discriminate E].
      destruct (pick_one (behind (Some c) f) E) as (F & A & B & D). exists c, (pick (behind (Some c) f)).
      repeat split; try exact F; try (apply behind_spec; assumption); apply behind_spec'; assumption.
    - right; right; left. split; [reflexivity|]. destruct (f_zclip fr) as [c|] eqn:Z; [|discriminate E].
      destruct (pick_one (fun k => negb (behind (Some c) f k))) as (F & A & B & D).
      { pose proof (negb_count (behind (Some c) f)) as N. unfold num_behind in E. rewrite E in N. lia. }
      exists c, (pick (fun k => negb (behind (Some c) f k))).
      apply Bool.negb_true_iff in A. apply Bool.negb_false_iff in B. apply Bool.negb_false_iff in D.
      repeat split; try exact F; try (apply behind_spec; assumption); apply behind_spec'; assumption.
    - right; left. split; [destruct (f_zclip fr); reflexivity|]. split; [reflexivity|]. destruct (f_zclip fr) as [c|] eqn:Z; [|discriminate E].
      exists c. split; [reflexivity|]. intros k. apply behind_spec. apply count_three. exact E.
  Qed.

  Lemma pieces_region f q : culled fr f = false ->
    (exists g m, In (g, m) (pieces fr f) /\ in_triangle p g q) <-> in_triangle p f q /\ in_front_of (f_zclip fr) q.
  Proof.
    intros K. destruct (pieces_cases f K) as [(E & N)|[(E & N & c & Z & A)|[(N & c & i & Z & _ & _ & A & B & D & E)|(N & c & i & Z & _ & _ & A & B & D & E)]]].
    - rewrite E. split.
      + intros (g & m & [I|[]] & T). injection I as <- <-. split; [exact T|]. unfold in_front_of. destruct (f_zclip fr) as [c|] eqn:Z; [|exact I].
        destruct T as ([u v t] & (U & V & W) & S & ->). rewrite weighted_z. cbn [x3 y3 z3] in *. unfold total in S. cbn [x3 y3 z3] in S.
        assert (H : forall k, c <= z3 (vert f k)) by (intros k; apply behind_spec', count_zero; exact N).
        pose proof (H I0). pose proof (H I1). pose proof (H I2).
        assert (0 <= u * (z3 (vert f I0) - c)) by (apply Rmult_le_pos; lra). assert (0 <= v * (z3 (vert f I1) - c)) by (apply Rmult_le_pos; lra).
        assert (0 <= t * (z3 (vert f I2) - c)) by (apply Rmult_le_pos; lra). replace c with ((u + v + t) * c) by (rewrite S; ring). lra.
      + intros [T _]. exists f, None. split; [left; reflexivity|exact T].
    - rewrite E, Z. split; [intros (g & m & [] & _)|]. intros [([u v t] & (U & V & W) & S & ->) F]. exfalso. unfold in_front_of in F.
      rewrite weighted_z in F. cbn [x3 y3 z3] in *. unfold total in S. cbn [x3 y3 z3] in S. pose proof (A I0). pose proof (A I1). pose proof (A I2).
      assert (0 <= u * (c - z3 (vert f I0))) by (apply Rmult_le_pos; lra). assert (0 <= v * (c - z3 (vert f I1))) by (apply Rmult_le_pos; lra).
      assert (0 <= t * (c - z3 (vert f I2))) by (apply Rmult_le_pos; lra).
      assert (X : c = (u + v + t) * c) by (rewrite S; ring).
      assert (u * (c - z3 (vert f I0)) = 0 /\ v * (c - z3 (vert f I1)) = 0 /\ t * (c - z3 (vert f I2)) = 0) as (X1 & X2 & X3) by (repeat split; lra).
      apply Rmult_integral in X1. apply Rmult_integral in X2. apply Rmult_integral in X3. lra.
    - cbv zeta in E. rewrite E, Z. cbn [in_front_of]. rewrite <- (turn_in p i f q). unfold turn.
      rewrite <- (front_region _ _ _ c p (depth c Z) A B D q). cbn [cut_of find_verts fst snd nth]. fold p. split.
      + intros (g & m & [I|[]] & T). injection I as <- <-. exact T.
      + intros T. eexists. eexists. split; [left; reflexivity|exact T].
    - cbv zeta in E. rewrite E, Z. cbn [in_front_of]. rewrite <- (turn_in p i f q). unfold turn.
      rewrite <- (behind_region _ _ _ c p (depth c Z) A B D q). cbn [cut_of find_verts fst snd nth]. fold p. split.
      + intros (g & m & [I|[I|[]]] & T); injection I as <- <-; [left|right]; exact T.
      + intros [T|T]; eexists; eexists; (split; [|exact T]); [left|right; left]; reflexivity.
  Qed.

  Lemma pieces_convert f g om : In (g, om) (pieces fr f) ->
    match om with
    | None => g = f
    | Some m =>
        (forall w, weighted p g w = weighted p f (mulv3 m w) /\ total (mulv3 m w) = total w /\ (nonneg3 w -> nonneg3 (mulv3 m w))) /\
        exists s, 0 <= s <= 1 /\ normal_of p g = scal3 s (normal_of p f)
    end.
  Proof.
    intros H. assert (K : culled fr f = false) by (unfold pieces in H; destruct (culled fr f); [contradiction|reflexivity]).
    destruct (pieces_cases f K) as [(E & N)|[(E & N & c & Z & A)|[(N & c & i & Z & _ & _ & A & B & D & E)|(N & c & i & Z & _ & _ & A & B & D & E)]]];
      cbv zeta in E; rewrite E in H; clear E.
    - destruct H as [H|[]]. injection H as <- <-. reflexivity.
    - contradiction.
    - destruct H as [H|[]]. injection H as <- <-. cbn [cut_of find_verts fst snd nth]. fold p.
      destruct (front_weights (vert f i) (vert f (next i)) (vert f (prev i)) c A B D) as [W2 W3].
      pose proof (cut_corner p f i (next i) c ltac:(lra) (depth c Z) W2) as C4. pose proof (cut_corner p f i (prev i) c ltac:(lra) (depth c Z) W3) as C5.
      pose proof (axis_corner p f i) as C1. split; [exact (corners_conv p f _ _ _ _ _ _ C4 C5 C1)|].
      eexists. split; [|exact (corners_normal p f _ _ _ _ _ _ C4 C5 C1)].
      set (w2 := cut_weight _ _ _) in *. set (w3 := cut_weight _ (vert f (prev i)) _) in *. clearbody w2 w3.
      match goal with |- 0 <= ?d <= 1 => replace d with (w2 * w3) by (destruct i; unfold det3, stack2, add3, scal3; cbn; ring) end.
      split; [apply Rmult_le_pos; lra|]. replace 1 with (1 * 1) by ring. apply Rmult_le_compat; lra.
    - destruct (behind_weights (vert f i) (vert f (next i)) (vert f (prev i)) c A B D) as [W2 W3].
      pose proof (cut_corner p f i (next i) c ltac:(lra) (depth c Z) ltac:(lra)) as C4. pose proof (cut_corner p f i (prev i) c ltac:(lra) (depth c Z) ltac:(lra)) as C5.
      pose proof (axis_corner p f (next i)) as C2. pose proof (axis_corner p f (prev i)) as C3.
      destruct H as [H|[H|[]]]; injection H as <- <-; cbn [cut_of find_verts fst snd nth]; fold p.
      + split; [exact (corners_conv p f _ _ _ _ _ _ C4 C2 C5)|]. eexists. split; [|exact (corners_normal p f _ _ _ _ _ _ C4 C2 C5)].
        set (w2 := cut_weight _ _ _) in *. set (w3 := cut_weight _ (vert f (prev i)) _) in *. clearbody w2 w3.
        match goal with |- 0 <= ?d <= 1 => replace d with ((1 - w2) * w3) by (destruct i; unfold det3, stack2, add3, scal3; cbn; ring) end.
        split; [apply Rmult_le_pos; lra|]. replace 1 with (1 * 1) at 2 by ring. apply Rmult_le_compat; lra.
      + split; [exact (corners_conv p f _ _ _ _ _ _ C5 C2 C3)|]. eexists. split; [|exact (corners_normal p f _ _ _ _ _ _ C5 C2 C3)].
        set (w3 := cut_weight _ (vert f (prev i)) _) in *. clearbody w3.
        match goal with |- 0 <= ?d <= 1 => replace d with (1 - w3) by (destruct i; unfold det3, stack2, add3, scal3; cbn; ring) end. lra.
  Qed.
End Pieces.
