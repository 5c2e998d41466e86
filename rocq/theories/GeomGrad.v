(* The backward routines of geometry_utils.h are derivatives of the forward ones. *)
From Coquelicot Require Import Coquelicot.
From Verif Require Import Base RBase Geom GeomSpec GeomProofs.
Local Open Scope R_scope.

Lemma is_derive_val (f : R -> R) (x l l' : R) : is_derive f x l -> l = l' -> is_derive f x l'.
Proof. intros H <-. exact H. Qed.
Ltac dtac := apply is_derive_Reals; auto_derive; [try (repeat split; auto; fail)|].

(* locally above / below a constant *)
Lemma locally_gt (f : R -> R) (x c : R) : ex_derive f x -> c < f x -> locally x (fun t => c < f t).
Proof.
  intros D H. apply (ex_derive_continuous f x D (fun y => c < y)). exact (open_gt c _ H).
Qed.
Lemma locally_lt (f : R -> R) (x c : R) : ex_derive f x -> f x < c -> locally x (fun t => f t < c).
Proof.
  intros D H. apply (ex_derive_continuous f x D (fun y => y < c)). exact (open_lt c _ H).
Qed.
Lemma derive_loc (f g : R -> R) (x l : R) (P : R -> Prop) :
  locally x P -> (forall t, P t -> f t = g t) -> is_derive f x l -> is_derive g x l.
Proof.
  intros HP H D. eapply is_derive_ext_loc; [|exact D]. revert HP. apply filter_imp. exact H.
Qed.

(* ---- edge function ---- *)
Lemma edge_bwd_ok p v0 v1 g : let '(gp, ga, gb) := edge_bwd p v0 v1 g in
  is_grad2 (fun q => g * edge q v0 v1) p gp /\ is_grad2 (fun q => g * edge p q v1) v0 ga /\
  is_grad2 (fun q => g * edge p v0 q) v1 gb.
Proof.
  unfold edge_bwd, is_grad2, edge, scal2; cbn.
  repeat split; dtac; auto; ring.
Qed.

Lemma bary_bwd_ok p v0 v1 v2 gw : edge v2 v0 v1 + kEps <> 0 ->
  let '(gp, g0, g1, g2) := bary_bwd p v0 v1 v2 gw in
  is_grad2 (fun q => dot3 gw (bary q v0 v1 v2)) p gp /\ is_grad2 (fun q => dot3 gw (bary p q v1 v2)) v0 g0 /\
  is_grad2 (fun q => dot3 gw (bary p v0 q v2)) v1 g1 /\ is_grad2 (fun q => dot3 gw (bary p v0 v1 q)) v2 g2.
Proof.
  intros H. set (k := kEps) in *.
  destruct p as [px py], v0 as [ax ay], v1 as [bx by_], v2 as [cx cy], gw as [g0 g1 g2].
  unfold bary_bwd, edge_bwd, is_grad2, dot3, bary, edge, scal2, add2 in *; cbn [x2 y2 x3 y3 z3] in *. fold k. clearbody k.
  repeat split; apply is_derive_Reals; auto_derive; auto; field; auto.
Qed.

(* ---- perspective correction, away from the clamp ---- *)
Ltac loc_gt s := apply is_derive_Reals;
  eapply (derive_loc _ _ _ _ (fun t => kEps < s t));
  [apply (locally_gt s); [cbv beta; auto_derive; trivial|cbv beta; lra]
  |intros t Ht; cbv beta in Ht |- *; match goal with |- context[Rmax ?a kEps] => rewrite (Rmax_left a kEps) by lra end; reflexivity|];
  auto_derive; [repeat split; lra|].
Lemma persp_bwd_ok b z0 z1 z2 g : kEps < x3 b * z1 * z2 + y3 b * z0 * z2 + z3 b * z0 * z1 ->
  let '(gb, g0, g1, g2) := persp_bwd b z0 z1 z2 g in
  is_grad3 (fun c => dot3 g (persp c z0 z1 z2)) b gb /\
  derivable_pt_lim (fun z => dot3 g (persp b z z1 z2)) z0 g0 /\
  derivable_pt_lim (fun z => dot3 g (persp b z0 z z2)) z1 g1 /\
  derivable_pt_lim (fun z => dot3 g (persp b z0 z1 z)) z2 g2.
Proof.
  intros H. assert (K := kEps_pos). destruct b as [a b c], g as [u v w].
  unfold persp_bwd, is_grad3, dot3, persp in *; cbn [x3 y3 z3] in *.
  rewrite !(Rmax_left (a * z1 * z2 + _ + _)) by lra.
  split; [split; [|split]|split; [|split]].
  - loc_gt (fun t => t * z1 * z2 + b * z0 * z2 + c * z0 * z1). field. lra.
  - loc_gt (fun t => a * z1 * z2 + t * z0 * z2 + c * z0 * z1). field. lra.
  - loc_gt (fun t => a * z1 * z2 + b * z0 * z2 + t * z0 * z1). field. lra.
  - loc_gt (fun t => a * z1 * z2 + b * t * z2 + c * t * z1). field. lra.
  - loc_gt (fun t => a * t * z2 + b * z0 * z2 + c * z0 * t). field. lra.
  - loc_gt (fun t => a * z1 * t + b * z0 * t + c * z0 * z1). field. lra.
Qed.

(* ---- clipping, away from the kinks ---- *)
Lemma clipSum_pos : 0 < clipSum. Proof. apply Rinv_0_lt_compat. lra. Qed.
Lemma clip1 x y z u v w : x <> 0 -> 0 <= y -> 0 <= z -> Rmax x 0 + y + z <> clipSum ->
  let s := Rmax x 0 + y + z in
  let gs := if Rltb s clipSum then 0 else 1 in
  let W := if Rltb s clipSum then clipSum else s in
  is_derive (fun t => u * (Rmax t 0 / Rmax (Rmax t 0 + y + z) clipSum) + v * (y / Rmax (Rmax t 0 + y + z) clipSum)
                      + w * (z / Rmax (Rmax t 0 + y + z) clipSum)) x
    ((if Rltb x 0 then 0 else 1) *
     (u * (1 / W + - Rmax x 0 / W ^ 2 * gs) + v * (- y / W ^ 2 * gs) + w * (- z / W ^ 2 * gs))).
Proof.
  intros Hx Hy Hz Hs s gs W. assert (C := clipSum_pos). unfold gs, W, s in *. clear gs W s.
  destruct (Rltb_spec x 0) as [N|N].
  - eapply (derive_loc (fun _ => _) _ _ _ (fun t => t < 0)).
    + apply (locally_lt (fun t => t)); [auto_derive; trivial|exact N].
    + intros t Ht. cbv beta. rewrite (Rmax_right t 0) by lra. reflexivity.
    + auto_derive; [trivial|ring].
  - assert (P : 0 < x) by lra. rewrite (Rmax_left x 0) in * by lra.
    destruct (Rltb_spec (x + y + z) clipSum) as [L|L].
    + eapply (derive_loc _ _ _ _ (fun t => 0 < t /\ t + y + z < clipSum)).
      * apply filter_and; [apply (locally_gt (fun t => t)); [auto_derive; trivial|lra]|].
        apply (locally_lt (fun t => t + y + z)); [auto_derive; trivial|lra].
      * intros t [H1 H2]. cbv beta. rewrite (Rmax_left t 0), (Rmax_right (t + y + z) clipSum) by lra. reflexivity.
      * auto_derive; [lra|]. field. lra.
    + eapply (derive_loc _ _ _ _ (fun t => 0 < t /\ clipSum < t + y + z)).
      * apply filter_and; [apply (locally_gt (fun t => t)); [auto_derive; trivial|lra]|].
        apply (locally_gt (fun t => t + y + z)); [auto_derive; trivial|lra].
      * intros t [H1 H2]. cbv beta. rewrite (Rmax_left t 0), (Rmax_left (t + y + z) clipSum) by lra. reflexivity.
      * auto_derive; [repeat split; lra|]. field. lra.
Qed.
Lemma clip_bwd_ok b g : x3 b <> 0 -> y3 b <> 0 -> z3 b <> 0 ->
  Rmax (x3 b) 0 + Rmax (y3 b) 0 + Rmax (z3 b) 0 <> clipSum ->
  is_grad3 (fun c => dot3 g (clip c)) b (clip_bwd b g).
Proof.
  destruct b as [x y z], g as [u v w]. cbn. intros Hx Hy Hz Hs.
  assert (Px := Rmax_r x 0). assert (Py := Rmax_r y 0). assert (Pz := Rmax_r z 0).
  unfold is_grad3, clip_bwd, clip, dot3; cbn [x3 y3 z3].
  split; [|split]; apply is_derive_Reals.
  - assert (D := clip1 x (Rmax y 0) (Rmax z 0) u v w Hx Py Pz Hs). exact D.
  - assert (Hs' : Rmax y 0 + Rmax x 0 + Rmax z 0 <> clipSum) by lra.
    assert (D := clip1 y (Rmax x 0) (Rmax z 0) v u w Hy Px Pz Hs'). cbv zeta in D.
    replace (Rmax y 0 + Rmax x 0 + Rmax z 0) with (Rmax x 0 + Rmax y 0 + Rmax z 0) in D by ring.
    eapply is_derive_ext; [|exact D]. intros t. cbn beta.
    replace (Rmax t 0 + Rmax x 0 + Rmax z 0) with (Rmax x 0 + Rmax t 0 + Rmax z 0) by ring. lra.
  - assert (Hs' : Rmax z 0 + Rmax x 0 + Rmax y 0 <> clipSum) by lra.
    assert (D := clip1 z (Rmax x 0) (Rmax y 0) w u v Hz Px Py Hs'). cbv zeta in D.
    replace (Rmax z 0 + Rmax x 0 + Rmax y 0) with (Rmax x 0 + Rmax y 0 + Rmax z 0) in D by ring.
    eapply is_derive_ext; [|exact D]. intros t. cbn beta.
    replace (Rmax t 0 + Rmax x 0 + Rmax y 0) with (Rmax x 0 + Rmax y 0 + Rmax t 0) by ring. lra.
Qed.

(* ---- the clamp of the projection parameter ---- *)
(* phi t = (clamp01 t - t)^2 is differentiable everywhere *)
Definition phi (t : R) : R := (clamp01 t - t) ^ 2.
Lemma phi_bound t h : Rabs (phi (t + h) - phi t - 2 * (t - clamp01 t) * h) <= h ^ 2.
Proof.
  apply Rabs_le. unfold phi, clamp01, Rmin, Rmax.
  destruct (Rle_dec t 0); destruct (Rle_dec (t + h) 0); repeat (destruct (Rle_dec _ 1));
    repeat match goal with H : ~ _ <= _ |- _ => apply Rnot_le_lt in H end; try lra;
    split; nra.
Qed.

Lemma phi_derive t : is_derive phi t (2 * (t - clamp01 t)).
Proof.
  apply is_derive_Reals. intros eps He. exists (mkposreal eps He). intros h Hh Hb. cbn in Hb.
  replace ((phi (t + h) - phi t) / h - 2 * (t - clamp01 t)) with ((phi (t + h) - phi t - 2 * (t - clamp01 t) * h) / h) by (field; exact Hh).
  unfold Rdiv. rewrite Rabs_mult, Rabs_inv.
  assert (P : 0 < Rabs h) by (apply Rabs_pos_lt; exact Hh).
  apply Rle_lt_trans with (h ^ 2 * / Rabs h).
  - apply Rmult_le_compat_r; [left; apply Rinv_0_lt_compat; exact P|apply phi_bound].
  - rewrite <- (pow2_abs h). replace (Rabs h ^ 2 * / Rabs h) with (Rabs h) by (field; lra). exact Hb.
Qed.
Lemma phi_Derive t : Derive phi t = 2 * (t - clamp01 t).
Proof. apply is_derive_unique, phi_derive. Qed.
Lemma phi_ex t : ex_derive phi t.
Proof. eexists. apply phi_derive. Qed.

(* canonical form of the segment distance and of its gradient *)
Definition pl3 (px py pz ax ay az bx by_ bz : R) : R :=
  let l2 := (bx - ax) * (bx - ax) + (by_ - ay) * (by_ - ay) + (bz - az) * (bz - az) in
  let D := (bx - ax) * (px - ax) + (by_ - ay) * (py - ay) + (bz - az) * (pz - az) in
  (px - ax) * (px - ax) + (py - ay) * (py - ay) + (pz - az) * (pz - az) - D * D / l2 + l2 * phi (D / l2).
Lemma pline3_pl3 px py pz ax ay az bx by_ bz :
  kEps < (bx - ax) * (bx - ax) + (by_ - ay) * (by_ - ay) + (bz - az) * (bz - az) ->
  pl3 px py pz ax ay az bx by_ bz = pline3 (V3 px py pz) (V3 ax ay az) (V3 bx by_ bz).
Proof.
  intros H. assert (K := kEps_pos). unfold pline3, pl3, dot3, sub3, add3, scal3; cbn [x3 y3 z3].
  match goal with |- context[Rleb ?a kEps] => replace (Rleb a kEps) with false by (symmetry; apply Rleb_false; lra) end.
  unfold phi. match goal with |- context[clamp01 ?a] => set (c := clamp01 a) end.
  field. lra.
Qed.
(* closest point for parameter c *)
Definition seg_c (p v0 v1 : vec3) : R := clamp01 (dot3 (sub3 v1 v0) (sub3 p v0) / dot3 (sub3 v1 v0) (sub3 v1 v0)).
Definition pl_gp (g : R) (p v0 v1 : vec3) : vec3 :=
  scal3 (2 * g) (sub3 p (add3 v0 (scal3 (seg_c p v0 v1) (sub3 v1 v0)))).

Ltac pl_one l2 :=
  apply is_derive_Reals;
  eapply (derive_loc _ _ _ _ (fun t => kEps < l2 t));
  [apply (locally_gt l2); [cbv beta; auto_derive; trivial|cbv beta; lra]
  |intros t Ht; cbv beta in Ht |- *; 
   match goal with |- context[pline3 (V3 ?a ?b ?c) (V3 ?d ?e ?f) (V3 ?i ?j ?k)] => rewrite <- (pline3_pl3 a b c d e f i j k) by lra end;
   unfold pl3; reflexivity|];
  auto_derive; [repeat split; try apply phi_ex; lra|];
  rewrite phi_Derive; unfold phi;
  match goal with |- context[clamp01 ?a] => let c := fresh "c" in set (c := clamp01 a);
    repeat match goal with |- context[clamp01 ?b] => replace (clamp01 b) with c by (unfold c; f_equal; field; lra) end end;
  field; lra.

Lemma pline3_grad p v0 v1 g : kEps < sqd3 v1 v0 ->
  is_grad3 (fun q => g * pline3 q v0 v1) p (pl_gp g p v0 v1) /\
  is_grad3 (fun q => g * pline3 p q v1) v0 (scal3 (- (1 - seg_c p v0 v1)) (pl_gp g p v0 v1)) /\
  is_grad3 (fun q => g * pline3 p v0 q) v1 (scal3 (- seg_c p v0 v1) (pl_gp g p v0 v1)).
Proof.
  intros H. assert (K := kEps_pos). destruct p as [px py pz], v0 as [ax ay az], v1 as [bx by_ bz].
  unfold is_grad3, pl_gp, seg_c, dot3, sub3, scal3, add3, sqd3 in *; cbn [x3 y3 z3] in *.
  assert (L : kEps < (bx - ax) * (bx - ax) + (by_ - ay) * (by_ - ay) + (bz - az) * (bz - az)) by lra. clear H.
  split; [|split]; (split; [|split]).
  - pl_one (fun t : R => (bx - ax) * (bx - ax) + (by_ - ay) * (by_ - ay) + (bz - az) * (bz - az)).
  - pl_one (fun t : R => (bx - ax) * (bx - ax) + (by_ - ay) * (by_ - ay) + (bz - az) * (bz - az)).
  - pl_one (fun t : R => (bx - ax) * (bx - ax) + (by_ - ay) * (by_ - ay) + (bz - az) * (bz - az)).
  - pl_one (fun t : R => (bx - t) * (bx - t) + (by_ - ay) * (by_ - ay) + (bz - az) * (bz - az)).
  - pl_one (fun t : R => (bx - ax) * (bx - ax) + (by_ - t) * (by_ - t) + (bz - az) * (bz - az)).
  - pl_one (fun t : R => (bx - ax) * (bx - ax) + (by_ - ay) * (by_ - ay) + (bz - t) * (bz - t)).
  - pl_one (fun t : R => (t - ax) * (t - ax) + (by_ - ay) * (by_ - ay) + (bz - az) * (bz - az)).
  - pl_one (fun t : R => (bx - ax) * (bx - ax) + (t - ay) * (t - ay) + (bz - az) * (bz - az)).
  - pl_one (fun t : R => (bx - ax) * (bx - ax) + (by_ - ay) * (by_ - ay) + (t - az) * (t - az)).
Qed.

Lemma pline3_bwd_canon p v0 v1 g : kEps < sqd3 v1 v0 ->
  pline3_bwd p v0 v1 g = (pl_gp g p v0 v1, scal3 (- (1 - seg_c p v0 v1)) (pl_gp g p v0 v1), scal3 (- seg_c p v0 v1) (pl_gp g p v0 v1)).
Proof.
  intros H. assert (K := kEps_pos). unfold pline3_bwd, pl_gp, seg_c. cbv zeta.
  set (d := sub3 v1 v0). set (l2 := dot3 d d).
  assert (L : kEps < l2) by (replace l2 with (sqd3 v1 v0) by (unfold l2, d, dot3, sub3, sqd3; cbn; ring); exact H).
  replace (Rltb l2 kEps) with false by (symmetry; apply Rltb_false; lra).
  set (t := dot3 d (sub3 p v0) / l2). unfold clamp01.
  destruct (Rltb_spec t 0) as [A|A].
  - rewrite (Rmax_right t 0) by lra. rewrite (Rmin_left 0 1) by lra.
    unfold scal3, sub3, add3, d; cbn. f_equal; [f_equal|]; f_equal; ring.
  - destruct (Rltb_spec 1 t) as [B|B].
    + rewrite (Rmax_left t 0) by lra. rewrite (Rmin_right t 1) by lra.
      unfold scal3, sub3, add3, d, sub3; cbn. f_equal; [f_equal|]; f_equal; ring.
    + rewrite (Rmax_left t 0) by lra. rewrite (Rmin_left t 1) by lra.
      set (base := scal3 (g * 2) (sub3 p (add3 v0 (scal3 t d)))).
      assert (Z : dot3 base d = 0).
      { replace (dot3 base d) with (g * 2 * (dot3 d (sub3 p v0) - t * l2))
          by (unfold base, l2, dot3, scal3, sub3, add3; cbn; ring).
        unfold t. field. lra. }
      rewrite Z. unfold base, scal3, sub3, add3, div3; cbn. f_equal; [f_equal|]; f_equal; field; lra.
Qed.
Lemma pline3_bwd_ok p v0 v1 g : kEps < sqd3 v1 v0 ->
  let '(gp, g0, g1) := pline3_bwd p v0 v1 g in
  is_grad3 (fun q => g * pline3 q v0 v1) p gp /\ is_grad3 (fun q => g * pline3 p q v1) v0 g0 /\
  is_grad3 (fun q => g * pline3 p v0 q) v1 g1.
Proof. intros H. rewrite pline3_bwd_canon by exact H. apply pline3_grad, H. Qed.

Lemma pline2_bwd_lift p v0 v1 g : kEps < sqd2 v1 v0 ->
  let '(gp, g0, g1) := pline2_bwd p v0 v1 g in let P := pl_gp g (lift p) (lift v0) (lift v1) in
  let c := seg_c (lift p) (lift v0) (lift v1) in
  gp = V2 (x3 P) (y3 P) /\ g0 = V2 (- (1 - c) * x3 P) (- (1 - c) * y3 P) /\ g1 = V2 (- c * x3 P) (- c * y3 P).
Proof.
  intros H. unfold pline2_bwd, pl_gp, seg_c. cbv zeta.
  replace (dot2 (sub2 v1 v0) (sub2 p v0)) with (dot3 (sub3 (lift v1) (lift v0)) (sub3 (lift p) (lift v0))) by (unfold dot2, dot3, sub2, sub3, lift; cbn; ring).
  replace (dot2 (sub2 v1 v0) (sub2 v1 v0)) with (dot3 (sub3 (lift v1) (lift v0)) (sub3 (lift v1) (lift v0))) by (unfold dot2, dot3, sub2, sub3, lift; cbn; ring).
  set (c := clamp01 _). unfold scal2, sub2, add2, scal3, sub3, add3, lift; cbn.
  repeat split; f_equal; ring.
Qed.
Lemma pline2_bwd_ok p v0 v1 g : kEps < sqd2 v1 v0 ->
  let '(gp, g0, g1) := pline2_bwd p v0 v1 g in
  is_grad2 (fun q => g * pline2 q v0 v1) p gp /\ is_grad2 (fun q => g * pline2 p q v1) v0 g0 /\
  is_grad2 (fun q => g * pline2 p v0 q) v1 g1.
Proof.
  intros H. assert (B := pline2_bwd_lift p v0 v1 g H). destruct (pline2_bwd p v0 v1 g) as [[gp g0] g1].
  destruct B as [-> [-> ->]].
  destruct (pline3_grad (lift p) (lift v0) (lift v1) g) as [[A1 [A2 _]] [[B1 [B2 _]] [C1 [C2 _]]]].
  { unfold sqd2, sqd3, lift in *; cbn in *. lra. }
  unfold is_grad2. cbn [x2 y2].
  repeat split; (eapply deriv_ext; [|eassumption]); intros t; cbv beta; rewrite pline2_lift; reflexivity.
Qed.

(* ---- the distance to a triangle boundary, where the closest edge is unique ---- *)
Lemma min3_a (f1 f2 f3 : R -> R) (x l g : R) : ex_derive f1 x -> ex_derive f2 x -> ex_derive f3 x -> f1 x < f2 x -> f1 x < f3 x ->
  derivable_pt_lim (fun t => g * f1 t) x l -> derivable_pt_lim (fun t => g * Rmin (Rmin (f1 t) (f2 t)) (f3 t)) x l.
Proof.
  intros D1 D2 D3 L1 L2 D. apply is_derive_Reals. apply is_derive_Reals in D.
  eapply (derive_loc _ _ _ _ (fun t => 0 < f2 t - f1 t /\ 0 < f3 t - f1 t)); [| |exact D].
  - apply filter_and; apply (locally_gt (fun t => _ t - f1 t)); try (apply (ex_derive_minus (V := R_NormedModule)); assumption); cbv beta; lra.
  - intros t [A B]. cbv beta. rewrite (Rmin_left (f1 t) (f2 t)), (Rmin_left (f1 t) (f3 t)) by lra. reflexivity.
Qed.
Lemma min3_b (f1 f2 f3 : R -> R) (x l g : R) : ex_derive f1 x -> ex_derive f2 x -> ex_derive f3 x -> f2 x < f1 x -> f2 x < f3 x ->
  derivable_pt_lim (fun t => g * f2 t) x l -> derivable_pt_lim (fun t => g * Rmin (Rmin (f1 t) (f2 t)) (f3 t)) x l.
Proof.
  intros D1 D2 D3 L1 L2 D. apply (deriv_ext _ (fun t => g * Rmin (Rmin (f2 t) (f1 t)) (f3 t))).
  - intros t. cbv beta. rewrite (Rmin_comm (f1 t) (f2 t)). reflexivity.
  - apply min3_a; assumption.
Qed.
Lemma min3_c (f1 f2 f3 : R -> R) (x l g : R) : ex_derive f1 x -> ex_derive f2 x -> ex_derive f3 x -> f3 x < f1 x -> f3 x < f2 x ->
  derivable_pt_lim (fun t => g * f3 t) x l -> derivable_pt_lim (fun t => g * Rmin (Rmin (f1 t) (f2 t)) (f3 t)) x l.
Proof.
  intros D1 D2 D3 L1 L2 D. apply (deriv_ext _ (fun t => g * Rmin (Rmin (f3 t) (f1 t)) (f2 t))).
  - intros t. cbv beta. rewrite (Rmin_comm (Rmin (f1 t) (f2 t)) (f3 t)), Rmin_assoc. reflexivity.
  - apply min3_a; assumption.
Qed.
Lemma ex_of_grad (f : R -> R) (x l : R) : derivable_pt_lim (fun t => 1 * f t) x l -> ex_derive f x.
Proof.
  intros H. exists l. apply is_derive_Reals. eapply deriv_ext; [|exact H]. intros t. cbv beta. ring.
Qed.
Lemma dconst (c x : R) : derivable_pt_lim (fun _ => c) x 0.
Proof. apply derivable_pt_lim_const. Qed.
Lemma pline2_ex p v0 v1 : kEps < sqd2 v1 v0 ->
  (forall c, c = true -> (ex_derive (fun t => pline2 (V2 t (y2 p)) v0 v1) (x2 p) /\ ex_derive (fun t => pline2 (V2 (x2 p) t) v0 v1) (y2 p)) /\
  (ex_derive (fun t => pline2 p (V2 t (y2 v0)) v1) (x2 v0) /\ ex_derive (fun t => pline2 p (V2 (x2 v0) t) v1) (y2 v0)) /\
  (ex_derive (fun t => pline2 p v0 (V2 t (y2 v1))) (x2 v1) /\ ex_derive (fun t => pline2 p v0 (V2 (x2 v1) t)) (y2 v1))).
Proof.
  intros H _ _. assert (B := pline2_bwd_ok p v0 v1 1 H). destruct (pline2_bwd p v0 v1 1) as [[a b] c].
  destruct B as [[A1 A2] [[B1 B2] [C1 C2]]]. repeat split; eapply ex_of_grad; eassumption.
Qed.
Lemma ptri2_bwd_ok p v0 v1 v2 g : kEps < sqd2 v1 v0 -> kEps < sqd2 v2 v0 -> kEps < sqd2 v2 v1 ->
  pline2 p v0 v1 <> pline2 p v0 v2 -> pline2 p v0 v1 <> pline2 p v1 v2 -> pline2 p v0 v2 <> pline2 p v1 v2 ->
  let '(gp, g0, g1, g2) := ptri2_bwd p v0 v1 v2 g in
  is_grad2 (fun q => g * ptri2 q v0 v1 v2) p gp /\ is_grad2 (fun q => g * ptri2 p q v1 v2) v0 g0 /\
  is_grad2 (fun q => g * ptri2 p v0 q v2) v1 g1 /\ is_grad2 (fun q => g * ptri2 p v0 v1 q) v2 g2.
Proof.
  intros L1 L2 L3 N1 N2 N3.
  destruct (pline2_ex p v0 v1 L1 true eq_refl) as [[X1 X2] [[X3 X4] [X5 X6]]].
  destruct (pline2_ex p v0 v2 L2 true eq_refl) as [[Y1 Y2] [[Y3 Y4] [Y5 Y6]]].
  destruct (pline2_ex p v1 v2 L3 true eq_refl) as [[Z1 Z2] [[Z3 Z4] [Z5 Z6]]].
  assert (B1 := pline2_bwd_ok p v0 v1 g L1). assert (B2 := pline2_bwd_ok p v0 v2 g L2). assert (B3 := pline2_bwd_ok p v1 v2 g L3).
  assert (EC : forall c x : R, ex_derive (fun _ : R => c) x) by (intros; apply ex_derive_const).
  destruct (pline2_bwd p v0 v1 g) as [[a1 a2] a3] eqn:E1, (pline2_bwd p v0 v2 g) as [[b1 b2] b3] eqn:E2,
    (pline2_bwd p v1 v2 g) as [[c1 c2] c3] eqn:E3.
  destruct B1 as [[P1 P2] [[P3 P4] [P5 P6]]], B2 as [[Q1 Q2] [[Q3 Q4] [Q5 Q6]]], B3 as [[R1 R2] [[R3 R4] [R5 R6]]].
  destruct p as [px py], v0 as [ax ay], v1 as [bx by_], v2 as [cx cy]. cbn [x2 y2] in *.
  unfold ptri2_bwd. cbv zeta.
  destruct (Rleb_spec (pline2 (V2 px py) (V2 ax ay) (V2 bx by_)) (pline2 (V2 px py) (V2 ax ay) (V2 cx cy))) as [C1|C1];
  destruct (Rleb_spec (pline2 (V2 px py) (V2 ax ay) (V2 bx by_)) (pline2 (V2 px py) (V2 bx by_) (V2 cx cy))) as [C2|C2];
  cbn [andb];
  try (destruct (Rleb_spec (pline2 (V2 px py) (V2 ax ay) (V2 cx cy)) (pline2 (V2 px py) (V2 ax ay) (V2 bx by_))) as [C3|C3]);
  try (destruct (Rleb_spec (pline2 (V2 px py) (V2 ax ay) (V2 cx cy)) (pline2 (V2 px py) (V2 bx by_) (V2 cx cy))) as [C4|C4]);
  try lra; cbn [andb];
  try (destruct (Rleb_spec (pline2 (V2 px py) (V2 bx by_) (V2 cx cy)) (pline2 (V2 px py) (V2 ax ay) (V2 bx by_))) as [C5|C5]);
  try (destruct (Rleb_spec (pline2 (V2 px py) (V2 bx by_) (V2 cx cy)) (pline2 (V2 px py) (V2 ax ay) (V2 cx cy))) as [C6|C6]);
  try lra; cbn [andb];
  try rewrite E1; try rewrite E2; try rewrite E3;
  unfold is_grad2, ptri2; cbn [x2 y2] in *; repeat split;
  try (first [apply min3_a; [auto|auto|auto|lra|lra|first [assumption|apply dconst]]
       |apply min3_b; [auto|auto|auto|lra|lra|first [assumption|apply dconst]]
       |apply min3_c; [auto|auto|auto|lra|lra|first [assumption|apply dconst]]]).
Qed.
