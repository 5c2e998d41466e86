From Coq Require Import Reals List Bool Arith Lra Lia Psatz.
From Verif Require Import Base RBase Geom Rotation RotationProofs Circle CircleSpec CircleProofs CircleProofs2 CircleProofs3.
Import ListNotations.
Local Open Scope R_scope.

Lemma dot_zero k : dot3 k k = 0 -> k = V3 0 0 0.
Proof. destruct k as [a b c]. unfold dot3. cbn. intros H. apply vec_eq; cbn; nra. Qed.
(* a cross product of two vectors across n is along n *)
Lemma along n u w : dot3 n n = 1 -> dot3 u n = 0 -> dot3 w n = 0 -> cross3 u w = scal3 (dot3 (cross3 u w) n) n.
Proof.
  intros N U W. set (k := cross3 u w).
  assert (H : forall p, dot3 p k * dot3 n n - dot3 p n * dot3 n k = dot3 (cross3 n p) w * dot3 u n * -1 + dot3 (cross3 n p) u * dot3 w n).
  { intros p. unfold k, dot3, cross3. cbn. ring. }
  assert (G : forall p, dot3 p k = dot3 p n * dot3 k n).
  { intros p. specialize (H p). rewrite N, U, W in H. replace (dot3 n k) with (dot3 k n) in H by (unfold dot3; ring). lra. }
  apply vec_eq; [pose proof (G (V3 1 0 0)) as K|pose proof (G (V3 0 1 0)) as K|pose proof (G (V3 0 0 1)) as K]; unfold dot3 at 1 2 in K; unfold scal3; cbn [x3 y3 z3] in *; lra.
Qed.
Lemma mean_plane l c v : (0 < length l)%nat -> (forall p, In p l -> dot3 (sub3 p c) v = 0) -> dot3 (sub3 (mean3 l) c) v = 0.
Proof.
  intros L H. assert (N : 0 < INR (length l)) by (apply lt_0_INR; exact L).
  assert (S0 : rsum (map x3 l) * x3 v + rsum (map y3 l) * y3 v + rsum (map z3 l) * z3 v = INR (length l) * dot3 c v).
  { clear L N. induction l as [|p l IH]; [cbn; unfold dot3; ring|]. cbn [map length]. rewrite !rsum_cons, S_INR.
    pose proof (H p (or_introl eq_refl)) as P. specialize (IH (fun q I => H q (or_intror I))). unfold dot3, sub3 in *. cbn [x3 y3 z3] in P. lra. }
  unfold mean3, dot3, sub3 in *. cbn [x3 y3 z3]. apply Rmult_eq_reg_l with (INR (length l)); [|lra].
  transitivity (rsum (map x3 l) * x3 v + rsum (map y3 l) * y3 v + rsum (map z3 l) * z3 v - INR (length l) * (x3 c * x3 v + y3 c * y3 v + z3 c * z3 v)); [field; lra|].
  rewrite S0. ring.
Qed.
Section Recover.
Variables (lstsq : list (R * R * R) -> list R -> R * R * R) (eigh : vec3 * vec3 * vec3 -> vec3 * vec3 * vec3).
Lemma fit3_circle l n angles offset up f c r v : eigenvectors eigh (scatter (map (fun p => sub3 p (mean3 l)) l)) ->
  (forall e1 e2, best_fit_rotation eigh l (mean3 l) = (e1, e2, cross3 e1 e2) -> lstsq_good lstsq (map (fun p => (dot3 (sub3 p (mean3 l)) e1, dot3 (sub3 p (mean3 l)) e2)) l)) ->
  fit3 lstsq eigh l n angles offset up = Ok f -> not_on_a_line3 l -> 0 <= r -> dot3 v v = 1 ->
  (forall p, In p l -> dot3 (sub3 p c) (sub3 p c) = r ^ 2 /\ dot3 (sub3 p c) v = 0) ->
  center3 f = c /\ radius3 f = r /\ (normal3 f = v \/ normal3 f = scal3 (-1) v).
Proof.
  intros Eg Lg E (p & q & s & P & Q & S & K) R0 V On.
  assert (L : (0 < length l)%nat) by (destruct l; [destruct P|cbn; lia]).
  set (m := mean3 l) in *. pose proof (mean_plane l c v L (fun p I => proj2 (On p I))) as Mv. fold m in Mv.
  assert (Pv : forall x, In x l -> dot3 (sub3 x m) v = 0).
  { intros x I. replace (dot3 (sub3 x m) v) with (dot3 (sub3 x c) v - dot3 (sub3 m c) v) by (unfold dot3, sub3; cbn; ring). rewrite Mv, (proj2 (On x I)). ring. }
  pose proof (fit3_plane lstsq eigh l n angles offset up f v Eg E V) as B. fold m in B.
  assert (Z : off_plane l m v = 0) by (unfold off_plane; apply rsum_map_zero; intros x I; rewrite (Pv x I); ring). rewrite Z in B.
  set (nn := normal3 f) in *. assert (Pn : forall x, In x l -> dot3 (sub3 x m) nn = 0) by (apply (rsum_zero_sq (fun x => dot3 (sub3 x m) nn) l B)).
  destruct (fit3_parts lstsq eigh l n angles offset up f Eg E) as (e1 & e2 & g & A1 & A2 & A3 & Bf & F & N & _). fold nn in N.
  destruct (cross_frame e1 e2 A1 A2 A3) as (N1 & _ & _). rewrite <- N in N1.
  set (u := sub3 q p) in *. set (w := sub3 s p) in *. set (k := cross3 u w) in *.
  assert (D : forall x y d, dot3 (sub3 x y) d = dot3 (sub3 x m) d - dot3 (sub3 y m) d) by (intros; unfold dot3, sub3; cbn; ring).
  assert (Kn : k = scal3 (dot3 k nn) nn) by (apply along; [exact N1| |]; unfold u, w; rewrite D, !Pn by assumption; ring).
  assert (Kv : k = scal3 (dot3 k v) v) by (apply along; [exact V| |]; unfold u, w; rewrite D, !Pv by assumption; ring).
  assert (Kn0 : dot3 k nn <> 0) by (intros H; apply K; rewrite Kn, H; apply vec_eq; cbn; ring).
  assert (Kv0 : dot3 k v <> 0) by (intros H; apply K; rewrite Kv, H; apply vec_eq; cbn; ring).
  assert (Cn : dot3 (sub3 c m) nn = 0).
  { assert (H : dot3 (sub3 c m) k = 0). { rewrite Kv. replace (dot3 (sub3 c m) (scal3 (dot3 k v) v)) with (dot3 k v * - dot3 (sub3 m c) v) by (unfold dot3, sub3, scal3; cbn; ring). rewrite Mv. ring. }
    rewrite Kn in H. replace (dot3 (sub3 c m) (scal3 (dot3 k nn) nn)) with (dot3 k nn * dot3 (sub3 c m) nn) in H by (unfold dot3, scal3; cbn; ring).
    apply Rmult_integral in H. tauto. }
  assert (Nl : forall e1 e2, best_fit_rotation eigh l m = (e1, e2, cross3 e1 e2) -> not_on_a_line (map (fun p => (dot3 (sub3 p m) e1, dot3 (sub3 p m) e2)) l)).
  { intros e1' e2' Bf'. assert (He : e1' = e1 /\ e2' = e2) by (unfold m in Bf'; rewrite Bf in Bf'; injection Bf'; auto). destruct He as [-> ->].
    set (pr := fun p => (dot3 (sub3 p m) e1, dot3 (sub3 p m) e2)). exists (pr p), (pr q), (pr s). do 3 (split; [apply in_map; assumption|]).
    replace (cross2 (psub (pr q) (pr p)) (psub (pr s) (pr p))) with (dot3 k nn); [exact Kn0|]. rewrite N. unfold cross2, psub, pr, k, u, w, dot3, cross3, sub3. cbn. ring. }
  destruct (fit3_exact lstsq eigh l n angles offset up f c r Eg Lg Nl E R0 (fun p I => proj1 (On p I)) Pn Cn) as [C1 C2].
  split; [exact C1|]. split; [exact C2|].
  (* the normal *)
  assert (Nv : nn = scal3 (dot3 k v / dot3 k nn) v).
  { assert (H : scal3 (dot3 k nn) nn = scal3 (dot3 k v) v) by (rewrite <- Kn, <- Kv; reflexivity).
    apply vec_eq; [apply (f_equal x3) in H|apply (f_equal y3) in H|apply (f_equal z3) in H]; unfold scal3 in *; cbn [x3 y3 z3] in *;
      (apply Rmult_eq_reg_l with (dot3 k nn); [rewrite H; field; exact Kn0|exact Kn0]). }
  set (t := dot3 k v / dot3 k nn) in *. assert (T : t * t = 1).
  { rewrite Nv in N1. replace (dot3 (scal3 t v) (scal3 t v)) with (t * t * dot3 v v) in N1 by (unfold dot3, scal3; cbn; ring). rewrite V in N1. lra. }
  assert (T' : (t - 1) * (t + 1) = 0) by lra. apply Rmult_integral in T'. destruct T' as [T'|T'].
  - left. rewrite Nv. replace t with 1 by lra. apply vec_eq; cbn; ring.
  - right. rewrite Nv. replace t with (-1) by lra. reflexivity.
Qed.
End Recover.
