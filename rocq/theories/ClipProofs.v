(* Clipping one triangle. *)
From Verif Require Import Base RBase Geom LinAlg Symeig Clip ClipSpec.
From Coq Require Import Psatz.
Local Open Scope R_scope.

(* the clipped faces of one face, each with its conversion matrix *)
Definition pick (sel : idx3 -> bool) : idx3 := hd I0 (filter sel all3).
Definition cut_of (fr : frustum) (c : R) (i : idx3) (f : face) := find_verts f i c (f_perspective fr).
Definition pieces (fr : frustum) (f : face) : list (face * option mat3) :=
  if culled fr f then [] else
  match num_behind (f_zclip fr) f, f_zclip fr with
  | 0%nat, _ => [(f, None)]
  | 1%nat, Some c =>
      let i := pick (behind (f_zclip fr) f) in
      let p := fst (cut_of fr c i f) in let b := snd (cut_of fr c i f) in
      let P k := nth k p (V3 0 0 0) in let B k := nth k b (V3 0 0 0) in
      [((P 3, P 1, P 4)%nat, Some (stack2 (B 3%nat) (B 1%nat) (B 4%nat)));
       ((P 4, P 1, P 2)%nat, Some (stack2 (B 4%nat) (B 1%nat) (B 2%nat)))]
  | 2%nat, Some c =>
      let i := pick (fun k => negb (behind (f_zclip fr) f k)) in
      let p := fst (cut_of fr c i f) in let b := snd (cut_of fr c i f) in
      let P k := nth k p (V3 0 0 0) in let B k := nth k b (V3 0 0 0) in
      [((P 3, P 4, P 0)%nat, Some (stack2 (B 3%nat) (B 4%nat) (B 0%nat)))]
  | _, _ => []
  end.

(* rotating the vertices of a triangle so that vertex i comes first *)
Definition turn (i : idx3) (f : face) : face := (vert f i, vert f (next i), vert f (prev i)).
Definition turnw (i : idx3) (w : vec3) : vec3 := V3 (at3 w i) (at3 w (next i)) (at3 w (prev i)).
Definition unturnw (i : idx3) (w : vec3) : vec3 :=
  match i with I0 => w | I1 => V3 (z3 w) (x3 w) (y3 w) | I2 => V3 (y3 w) (z3 w) (x3 w) end.
Lemma turn_weighted p i f w : weighted p (turn i f) w = weighted p f (unturnw i w).
Proof.
  destruct f as [[a b] c]. destruct i; unfold turn, vert, weighted; cbn [next prev unturnw x3 y3 z3];
  generalize (world p a), (world p b), (world p c); intros u v t; unfold add3, scal3; cbn [x3 y3 z3]; apply V3_eq; ring.
Qed.
Lemma unturn_nonneg i w : nonneg3 (unturnw i w) <-> nonneg3 w.
Proof. unfold nonneg3. destruct i, w; cbn; tauto. Qed.
Lemma unturn_total i w : total (unturnw i w) = total w.
Proof. unfold total. destruct i, w; cbn; ring. Qed.
Lemma unturn_turn i w : unturnw i (turnw i w) = w.
Proof. destruct i, w; reflexivity. Qed.
Lemma turn_in p i f q : in_triangle p (turn i f) q <-> in_triangle p f q.
Proof.
  split; intros (w & N & T & ->).
  - exists (unturnw i w). rewrite turn_weighted. split; [apply unturn_nonneg, N|]. split; [rewrite unturn_total; exact T|reflexivity].
  - exists (turnw i w). rewrite turn_weighted, unturn_turn. split; [apply (unturn_nonneg i); rewrite unturn_turn; exact N|].
    split; [rewrite <- (unturn_total i), unturn_turn; exact T|reflexivity].
Qed.

(* the intersection points *)
Lemma cut_world p q c persp : z3 p <> z3 q -> (persp = true -> c <> 0) ->
  world persp (cut_point p q c persp) = add3 (scal3 (1 - cut_weight p q c) (world persp p)) (scal3 (cut_weight p q c) (world persp q)) /\
  z3 (cut_point p q c persp) = c.
Proof.
  intros N C. assert (Z : (1 - cut_weight p q c) * z3 p + cut_weight p q c * z3 q = c) by (unfold cut_weight; field; lra).
  destruct persp; unfold cut_point; cbv zeta.
  - specialize (C eq_refl). set (w := cut_weight p q c) in *. clearbody w. unfold world, add3, scal3. cbn [x3 y3 z3].
    split; [|exact Z]. apply V3_eq; [| |reflexivity]; rewrite Z; field; exact C.
  - unfold world. split; [reflexivity|]. unfold add3, scal3. cbn [z3]. exact Z.
Qed.
Lemma world_z persp v : z3 (world persp v) = z3 v.
Proof. destruct persp; reflexivity. Qed.
Lemma weighted_z persp f w : z3 (weighted persp f w) = x3 w * z3 (vert f I0) + y3 w * z3 (vert f I1) + z3 w * z3 (vert f I2).
Proof. destruct f as [[a b] c]. unfold weighted, add3, scal3. cbn [z3 vert]. rewrite !world_z. reflexivity. Qed.

Lemma div_le_1 x y : x <= y -> 0 < y -> x / y <= 1.
Proof. intros A B. apply Rmult_le_reg_r with y; [exact B|]. unfold Rdiv. rewrite Rmult_assoc, Rinv_l; lra. Qed.

Section Cut.
  Variables (a b d : vec3) (c : R) (persp : bool).
  Hypothesis C0 : persp = true -> c <> 0.
  Let w2 := cut_weight a b c.
  Let w3 := cut_weight a d c.
  Let p4 := cut_point a b c persp.
  Let p5 := cut_point a d c persp.

  (* case 3: a in front, b and d behind *)
  Section Front.
    Hypothesis Ha : c <= z3 a.
    Hypothesis Hb : z3 b < c.
    Hypothesis Hd : z3 d < c.
    Lemma front_weights : 0 <= w2 <= 1 /\ 0 <= w3 <= 1.
    Proof.
      unfold w2, w3, cut_weight. split; split; try (apply Rle_mult_inv_pos; lra); apply div_le_1; lra.
    Qed.
    Lemma front_region q : in_triangle persp (p4, p5, a) q <-> in_triangle persp (a, b, d) q /\ c <= z3 q.
    Proof.
      destruct (cut_world a b c persp ltac:(lra) C0) as [E4 Z4]. destruct (cut_world a d c persp ltac:(lra) C0) as [E5 Z5].
      fold w2 p4 in E4, Z4. fold w3 p5 in E5, Z5. destruct front_weights as [W2 W3].
      split.
      - intros ([u v t] & (U & V & T) & S & ->). cbn [x3 y3 z3] in U, V, T. unfold total in S. cbn [x3 y3 z3] in S. split.
        + exists (V3 (u * (1 - w2) + v * (1 - w3) + t) (u * w2) (v * w3)). split; [|split].
          * assert (0 <= u * (1 - w2)) by (apply Rmult_le_pos; lra). assert (0 <= v * (1 - w3)) by (apply Rmult_le_pos; lra).
            assert (0 <= u * w2) by (apply Rmult_le_pos; lra). assert (0 <= v * w3) by (apply Rmult_le_pos; lra). unfold nonneg3. cbn [x3 y3 z3]. lra.
          * unfold total. cbn [x3 y3 z3]. lra.
          * unfold weighted. rewrite E4, E5. generalize (world persp a), (world persp b), (world persp d). intros. unfold add3, scal3. cbn [x3 y3 z3]. apply V3_eq; ring.
        + rewrite weighted_z. cbn [vert x3 y3 z3]. rewrite Z4, Z5. assert (0 <= t * (z3 a - c)) by (apply Rmult_le_pos; lra).
          replace (u * c + v * c + t * z3 a) with ((u + v + t) * c + t * (z3 a - c)) by ring. rewrite S. lra.
      - intros [([u v t] & (U & V & T) & S & ->) Z]. cbn [x3 y3 z3] in U, V, T. unfold total in S. cbn [x3 y3 z3] in S.
        rewrite weighted_z in Z. cbn [vert x3 y3 z3] in Z.
        destruct (Rle_lt_or_eq_dec _ _ Ha) as [L|Eq].
        + assert (P2 : 0 < w2) by (unfold w2, cut_weight; apply Rdiv_lt_0_compat; lra).
          assert (P3 : 0 < w3) by (unfold w3, cut_weight; apply Rdiv_lt_0_compat; lra).
          assert (Q : v / w2 + t / w3 <= 1).
          { unfold w2, w3, cut_weight. replace (v / ((z3 a - c) / (z3 a - z3 b)) + t / ((z3 a - c) / (z3 a - z3 d))) with ((v * (z3 a - z3 b) + t * (z3 a - z3 d)) / (z3 a - c)) by (field; lra).
            apply Rmult_le_reg_r with (z3 a - c); [lra|]. unfold Rdiv. rewrite Rmult_assoc, Rinv_l, Rmult_1_r, Rmult_1_l by lra.
            replace u with (1 - v - t) in Z by lra. lra. }
          assert (A1 : 0 <= v / w2) by (apply Rle_mult_inv_pos; lra). assert (A2 : 0 <= t / w3) by (apply Rle_mult_inv_pos; lra).
          exists (V3 (v / w2) (t / w3) (1 - v / w2 - t / w3)). split; [unfold nonneg3; cbn [x3 y3 z3]; lra|]. split; [unfold total; cbn [x3 y3 z3]; ring|].
          unfold weighted. rewrite E4, E5. generalize (world persp a), (world persp b), (world persp d). intros.
          replace u with (1 - v - t) by lra. unfold add3, scal3. cbn [x3 y3 z3]. apply V3_eq; field; lra.
        + assert (V0 : v = 0 /\ t = 0).
          { assert (0 <= v * (c - z3 b)) by (apply Rmult_le_pos; lra). assert (0 <= t * (c - z3 d)) by (apply Rmult_le_pos; lra).
            replace u with (1 - v - t) in Z by lra. rewrite <- Eq in Z.
            assert (X : v * (c - z3 b) = 0) by lra. assert (Y : t * (c - z3 d) = 0) by lra.
            apply Rmult_integral in X. apply Rmult_integral in Y. lra. }
          destruct V0 as [-> ->]. replace u with 1 by lra. exists (V3 0 0 1). split; [unfold nonneg3; cbn; lra|]. split; [unfold total; cbn; lra|].
          unfold weighted. rewrite E4, E5. generalize (world persp a), (world persp b), (world persp d). intros. unfold add3, scal3. cbn [x3 y3 z3]. apply V3_eq; ring.
    Qed.
  End Front.

  (* case 4: a behind, b and d in front *)
  Section Behind.
    Hypothesis Ha : z3 a < c.
    Hypothesis Hb : c <= z3 b.
    Hypothesis Hd : c <= z3 d.
    Lemma behind_weights : 0 < w2 <= 1 /\ 0 < w3 <= 1.
    Proof.
      unfold w2, w3, cut_weight.
      replace ((z3 a - c) / (z3 a - z3 b)) with ((c - z3 a) / (z3 b - z3 a)) by (field; lra).
      replace ((z3 a - c) / (z3 a - z3 d)) with ((c - z3 a) / (z3 d - z3 a)) by (field; lra).
      split; split; try (apply Rdiv_lt_0_compat; lra); apply div_le_1; lra.
    Qed.
    Lemma behind_region q : in_triangle persp (p4, b, p5) q \/ in_triangle persp (p5, b, d) q <-> in_triangle persp (a, b, d) q /\ c <= z3 q.
    Proof.
      destruct (cut_world a b c persp ltac:(lra) C0) as [E4 Z4]. destruct (cut_world a d c persp ltac:(lra) C0) as [E5 Z5].
      fold w2 p4 in E4, Z4. fold w3 p5 in E5, Z5. destruct behind_weights as [W2 W3].
      split.
      - intros [([u v t] & (U & V & T) & S & ->)|([u v t] & (U & V & T) & S & ->)]; cbn [x3 y3 z3] in U, V, T; unfold total in S; cbn [x3 y3 z3] in S.
        + assert (0 <= u * (1 - w2)) by (apply Rmult_le_pos; lra). assert (0 <= t * (1 - w3)) by (apply Rmult_le_pos; lra).
          assert (0 <= u * w2) by (apply Rmult_le_pos; lra). assert (0 <= t * w3) by (apply Rmult_le_pos; lra). split.
          * exists (V3 (u * (1 - w2) + t * (1 - w3)) (u * w2 + v) (t * w3)). split; [unfold nonneg3; cbn [x3 y3 z3]; lra|]. split; [unfold total; cbn [x3 y3 z3]; lra|].
            unfold weighted. rewrite E4, E5. generalize (world persp a), (world persp b), (world persp d). intros. unfold add3, scal3. cbn [x3 y3 z3]. apply V3_eq; ring.
          * rewrite weighted_z. cbn [vert x3 y3 z3]. rewrite Z4, Z5. assert (0 <= v * (z3 b - c)) by (apply Rmult_le_pos; lra).
            replace (u * c + v * z3 b + t * c) with ((u + v + t) * c + v * (z3 b - c)) by ring. rewrite S. lra.
        + assert (0 <= u * (1 - w3)) by (apply Rmult_le_pos; lra). assert (0 <= u * w3) by (apply Rmult_le_pos; lra). split.
          * exists (V3 (u * (1 - w3)) v (u * w3 + t)). split; [unfold nonneg3; cbn [x3 y3 z3]; lra|]. split; [unfold total; cbn [x3 y3 z3]; lra|].
            unfold weighted. rewrite E5. generalize (world persp a), (world persp b), (world persp d). intros. unfold add3, scal3. cbn [x3 y3 z3]. apply V3_eq; ring.
          * rewrite weighted_z. cbn [vert x3 y3 z3]. rewrite Z5. assert (0 <= v * (z3 b - c)) by (apply Rmult_le_pos; lra). assert (0 <= t * (z3 d - c)) by (apply Rmult_le_pos; lra).
            replace (u * c + v * z3 b + t * z3 d) with ((u + v + t) * c + v * (z3 b - c) + t * (z3 d - c)) by ring. rewrite S. lra.
      - intros [([u v t] & (U & V & T) & S & ->) Z]. cbn [x3 y3 z3] in U, V, T. unfold total in S. cbn [x3 y3 z3] in S.
        rewrite weighted_z in Z. cbn [vert x3 y3 z3] in Z.
        assert (D2 : w2 * (z3 b - z3 a) = c - z3 a) by (unfold w2, cut_weight; field; lra).
        assert (D3 : w3 * (z3 d - z3 a) = c - z3 a) by (unfold w3, cut_weight; field; lra).
        destruct (Rle_lt_dec (u * w3) (t * (1 - w3))) as [K|K].
        + (* in the second piece *)
          right. destruct (Req_dec u 0) as [U0|U0].
          * exists (V3 0 v t). split; [unfold nonneg3; cbn; lra|]. split; [unfold total; cbn; lra|]. subst u.
            unfold weighted. rewrite E5. generalize (world persp a), (world persp b), (world persp d). intros. unfold add3, scal3. cbn [x3 y3 z3]. apply V3_eq; ring.
          * assert (W : w3 < 1).
            { destruct (Rle_lt_or_eq_dec _ _ (proj2 W3)) as [|E]; [assumption|]. exfalso. rewrite E in K. lra. }
            assert (G : 0 <= u / (1 - w3)) by (apply Rle_mult_inv_pos; lra).
            exists (V3 (u / (1 - w3)) v (t - u / (1 - w3) * w3)). split; [|split].
            -- assert (0 <= t - u / (1 - w3) * w3); [|unfold nonneg3; cbn [x3 y3 z3]; lra].
               apply Rmult_le_reg_r with (1 - w3); [lra|]. replace ((t - u / (1 - w3) * w3) * (1 - w3)) with (t * (1 - w3) - u * w3) by (field; lra). lra.
            -- unfold total. cbn [x3 y3 z3]. replace v with (1 - u - t) by lra. field. lra.
            -- unfold weighted. rewrite E5. generalize (world persp a), (world persp b), (world persp d). intros. unfold add3, scal3. cbn [x3 y3 z3]. apply V3_eq; field; lra.
        + (* in the first piece *)
          left.
          assert (W : w2 < 1).
          { destruct (Rle_lt_or_eq_dec _ _ (proj2 W2)) as [|E]; [assumption|]. exfalso.
            assert (Eb : z3 b = c) by (rewrite E in D2; lra). rewrite Eb in Z. replace v with (1 - u - t) in Z by lra.
            (* u (c - za) <= t (zd - c) *)
            assert (X : u * (c - z3 a) <= t * (z3 d - c)) by lra. rewrite <- D3 in X. replace (z3 d - c) with ((1 - w3) * (z3 d - z3 a)) in X by lra.
            assert (Y : (u * w3) * (z3 d - z3 a) <= (t * (1 - w3)) * (z3 d - z3 a)) by lra.
            apply Rmult_le_reg_r in Y; lra. }
          assert (G : 0 <= t / w3) by (apply Rle_mult_inv_pos; lra).
          assert (H : 0 <= (u - t / w3 * (1 - w3)) / (1 - w2)).
          { apply Rle_mult_inv_pos; [|lra]. apply Rmult_le_reg_r with w3; [lra|]. replace ((u - t / w3 * (1 - w3)) * w3) with (u * w3 - t * (1 - w3)) by (field; lra). lra. }
          exists (V3 ((u - t / w3 * (1 - w3)) / (1 - w2)) (v - (u - t / w3 * (1 - w3)) / (1 - w2) * w2) (t / w3)). split; [|split].
          * assert (0 <= v - (u - t / w3 * (1 - w3)) / (1 - w2) * w2); [|unfold nonneg3; cbn [x3 y3 z3]; lra].
            (* from z >= c *)
            assert (B0 : 0 < z3 b - z3 a) by lra. assert (C1 : 0 < c - z3 a) by lra.
            apply Rmult_le_reg_r with ((1 - w2) * (z3 b - z3 a)); [apply Rmult_lt_0_compat; lra|]. rewrite Rmult_0_l.
            replace ((v - (u - t / w3 * (1 - w3)) / (1 - w2) * w2) * ((1 - w2) * (z3 b - z3 a)))
              with (v * ((z3 b - z3 a) - w2 * (z3 b - z3 a)) - (u - t / w3 + t) * (w2 * (z3 b - z3 a))) by (field; lra).
            rewrite D2. replace (t / w3) with (t * (z3 d - z3 a) / (c - z3 a)) by (rewrite <- D3; field; lra).
            replace (v * (z3 b - z3 a - (c - z3 a)) - (u - t * (z3 d - z3 a) / (c - z3 a) + t) * (c - z3 a))
              with (v * (z3 b - c) - u * (c - z3 a) + t * (z3 d - c)) by (field; lra).
            replace v with (1 - u - t) in Z |- * by lra. lra.
          * unfold total. cbn [x3 y3 z3]. replace v with (1 - u - t) by lra. field. lra.
          * unfold weighted. rewrite E4, E5. generalize (world persp a), (world persp b), (world persp d). intros. unfold add3, scal3. cbn [x3 y3 z3]. apply V3_eq; field; lra.
    Qed.
  End Behind.
End Cut.
