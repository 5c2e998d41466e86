From Coq Require Import Reals List Bool Arith Lra Lia Psatz Permutation.
From Verif Require Import Base RBase Geom Rotation RotationProofs Circle CircleSpec CircleProofs.
Import ListNotations.
Local Open Scope R_scope.

Section Fit.
Variable lstsq : list (R * R * R) -> list R -> R * R * R.
(* the angles that are used *)
Lemma fit2_ok l n angles : (3 <= length l)%nat -> lstsq_good lstsq l ->
  exists c r, 0 <= r /\ minimal l (circle_of c (r ^ 2)) /\
  exists p0 l', l = p0 :: l' /\ fit2 lstsq l n angles = Ok (Circle2 c r (map (fun t =>
    let u := if Rltb 0 (signed_area l) then atan2 (snd (psub p0 c)) (fst (psub p0 c)) + t else atan2 (snd (psub p0 c)) (fst (psub p0 c)) - t in
    (fst c + r * cos u, snd c + r * sin u)) (angles_used n angles))).
Proof.
  intros L G. unfold fit2. destruct (Nat.ltb_spec (length l) 3); [lia|]. unfold lstsq_good, least_squares in G.
  destruct (lstsq _ _) as [[s0 s1] s2]. assert (M : minimal l (s0, s1, s2)) by (intros s; rewrite <- !error_obj; apply G).
  set (c := (s0 / 2, s1 / 2)). set (sq := s2 + (fst c ^ 2 + snd c ^ 2)). rewrite (solution_circle s0 s1 s2) in M. fold c in M.
  change (s2 + ((s0 / 2) ^ 2 + (s1 / 2) ^ 2)) with sq in M.
  assert (P : 0 <= sq).
  { pose proof M as M'. unfold circle_of in M'. apply minimal_mean in M'. change (2 * fst c, 2 * snd c, sq - (fst c ^ 2 + snd c ^ 2)) with (circle_of c sq) in M'.
    destruct (Rle_dec 0 sq) as [Q|Q]; [exact Q|]. exfalso.
    assert (B : forall k, (0 < length k)%nat -> rsum (map (err (circle_of c sq)) k) < 0).
    { induction k as [|x k IH]; intros K; [cbn in K; lia|]. cbn [map]. rewrite rsum_cons, err_circle. unfold dist2sq.
      pose proof (pow2_ge_0 (fst x - fst c)). pose proof (pow2_ge_0 (snd x - snd c)). destruct k as [|y k]; [cbn [map]; rewrite rsum_nil; lra|]. specialize (IH ltac:(cbn; lia)). lra. }
    specialize (B l ltac:(lia)). lra. }
  cbv zeta. fold c. destruct (Rltb_spec sq 0) as [Q|Q]; [lra|]. fold sq. destruct l as [|p0 l']; [cbn in L; lia|].
  exists c, (sqrt sq). split; [apply sqrt_pos|]. split; [rewrite <- Rsqr_pow2, Rsqr_sqrt by exact P; exact M|].
  exists p0, l'. split; [reflexivity|]. unfold angles_used. destruct angles as [a|].
  - cbn [rget rbind nth_error]. rewrite map_map. do 2 f_equal.
  - destruct (0 <? n)%nat; [|reflexivity]. cbn [rget rbind nth_error]. rewrite map_map. do 2 f_equal.
Qed.
Lemma fit2_few l n angles : (length l < 3)%nat -> fit2 lstsq l n angles = Fail EValue.
Proof. intros H. unfold fit2. destruct (Nat.ltb_spec (length l) 3); [reflexivity|lia]. Qed.
Lemma fit2_best l n angles f : lstsq_good lstsq l -> fit2 lstsq l n angles = Ok f ->
  0 <= radius f /\ (forall c r2, misfit l (center f) (radius f ^ 2) <= misfit l c r2) /\
  radius f ^ 2 = rsum (map (fun p => dist2sq p (center f)) l) / INR (length l).
Proof.
  intros G E. destruct (le_lt_dec 3 (length l)) as [L|L]; [|rewrite fit2_few in E by exact L; discriminate].
  destruct (fit2_ok l n angles L G) as (c & r & P & M & p0 & l' & El & F). rewrite F in E. injection E as <-. cbn [radius center].
  split; [exact P|]. split.
  - intros c' r2. rewrite <- !obj_circle. apply M.
  - unfold circle_of in M. apply minimal_mean in M. change (2 * fst c, 2 * snd c, r ^ 2 - (fst c ^ 2 + snd c ^ 2)) with (circle_of c (r ^ 2)) in M.
    assert (N : 0 < INR (length l)) by (apply lt_0_INR; lia).
    assert (H : rsum (map (err (circle_of c (r ^ 2))) l) = INR (length l) * r ^ 2 - rsum (map (fun p => dist2sq p c) l)).
    { clear. induction l as [|x l IH]; [cbn; lra|]. cbn [map length]. rewrite !rsum_cons, IH, err_circle, S_INR. ring. }
    rewrite H in M. apply Rmult_eq_reg_l with (INR (length l)); [|lra]. field_simplify; lra.
Qed.
Lemma fit2_exact l n angles f c r : lstsq_good lstsq l -> fit2 lstsq l n angles = Ok f -> not_on_a_line l -> 0 <= r ->
  (forall p, In p l -> dist2sq p c = r ^ 2) -> center f = c /\ radius f = r.
Proof.
  intros G E C R0 H. destruct (le_lt_dec 3 (length l)) as [L|L]; [|rewrite fit2_few in E by exact L; discriminate].
  destruct (fit2_ok l n angles L G) as (c' & r' & P & M & p0 & l' & El & F). rewrite F in E. injection E as <-. cbn [radius center].
  assert (Z : minimal l (circle_of c (r ^ 2))).
  { intros s. assert (Q : obj l (circle_of c (r ^ 2)) = 0). { unfold obj. apply rsum_map_zero. intros p I. rewrite err_circle, (H p I). ring. }
    rewrite Q. unfold obj. clear. induction l as [|x l IH]; [cbn; lra|]. cbn [map]. rewrite rsum_cons. pose proof (pow2_ge_0 (err s x)). lra. }
  pose proof (obj_unique l _ _ C M Z) as U. unfold circle_of in U. destruct c as [a b], c' as [a' b']. cbn [fst snd] in U. injection U as U1 U2 U3.
  assert (a' = a) by lra. assert (b' = b) by lra. subst. split; [reflexivity|]. assert (Q : r' ^ 2 = r ^ 2) by lra. nra.
Qed.
Lemma fit2_order l k n angles n' angles' f g : Permutation l k -> not_on_a_line l -> lstsq_good lstsq l -> lstsq_good lstsq k ->
  fit2 lstsq l n angles = Ok f -> fit2 lstsq k n' angles' = Ok g -> center f = center g /\ radius f = radius g.
Proof.
  intros P C G1 G2 E1 E2.
  destruct (le_lt_dec 3 (length l)) as [L|L]; [|rewrite fit2_few in E1 by exact L; discriminate].
  destruct (le_lt_dec 3 (length k)) as [K|K]; [|rewrite fit2_few in E2 by exact K; discriminate].
  destruct (fit2_ok l n angles L G1) as (c & r & P1 & M1 & p0 & l' & El & F1). rewrite F1 in E1. injection E1 as <-.
  destruct (fit2_ok k n' angles' K G2) as (c' & r' & P2 & M2 & p0' & k' & Ek & F2). rewrite F2 in E2. injection E2 as <-. cbn [radius center].
  assert (O : forall s, obj k s = obj l s) by (intros s; unfold obj; apply rsum_perm, Permutation_map, Permutation_sym, P).
  assert (M3 : minimal l (circle_of c' (r' ^ 2))) by (intros s; rewrite <- !O; apply M2).
  pose proof (obj_unique l _ _ C M1 M3) as U. unfold circle_of in U. destruct c as [a b], c' as [a' b']. cbn [fst snd] in U. injection U as U1 U2 U3.
  assert (a' = a) by lra. assert (b' = b) by lra. subst. split; [reflexivity|]. assert (Q : r' ^ 2 = r ^ 2) by lra. nra.
Qed.
(* ---- the points along the circle ---- *)
Lemma fit2_generated l n angles f : lstsq_good lstsq l -> fit2 lstsq l n angles = Ok f ->
  length (generated f) = length (angles_used n angles) /\ (forall g, In g (generated f) -> dist2sq g (center f) = radius f ^ 2).
Proof.
  intros G E. destruct (le_lt_dec 3 (length l)) as [L|L]; [|rewrite fit2_few in E by exact L; discriminate].
  destruct (fit2_ok l n angles L G) as (c & r & P & M & p0 & l' & El & F). rewrite F in E. injection E as <-. cbn [radius center generated].
  split; [apply map_length|]. intros g I. apply in_map_iff in I as (t & <- & _). cbv zeta. unfold dist2sq. cbn [fst snd].
  set (u := if Rltb 0 (signed_area l) then _ else _). pose proof (sin2_cos2 u) as S. unfold Rsqr in S.
  replace ((fst c + r * cos u - fst c) ^ 2 + (snd c + r * sin u - snd c) ^ 2) with (r ^ 2 * (sin u * sin u + cos u * cos u)) by ring. rewrite S. ring.
Qed.
Lemma polar c r p0 : 0 <= r -> let u := atan2 (snd (psub p0 c)) (fst (psub p0 c)) in
  forall z, dist2sq z c = r ^ 2 -> dist2sq p0 (fst c + r * cos u, snd c + r * sin u) <= dist2sq p0 z.
Proof.
  intros R0 u z Z. set (x := fst (psub p0 c)). set (y := snd (psub p0 c)). unfold psub in x, y. cbn [fst snd] in x, y.
  set (D := sqrt (x * x + y * y)). assert (DD : x * x + y * y = D * D) by (unfold D; rewrite sqrt_sqrt; [reflexivity|nra]).
  assert (D0 : 0 <= D) by apply sqrt_pos. pose proof (sin2_cos2 u) as S. unfold Rsqr in S.
  set (a := fst z - fst c). set (b := snd z - snd c). assert (Z' : a * a + b * b = r * r) by (unfold a, b; unfold dist2sq in Z; lra).
  assert (E1 : dist2sq p0 (fst c + r * cos u, snd c + r * sin u) = D * D + r * r - 2 * r * (x * cos u + y * sin u)).
  { rewrite <- DD. unfold dist2sq, x, y. cbn [fst snd]. replace (r * r) with (r * r * (sin u * sin u + cos u * cos u)) by (rewrite S; ring). ring. }
  assert (E2 : dist2sq p0 z = D * D + r * r - 2 * (x * a + y * b)) by (rewrite <- DD, <- Z'; unfold dist2sq, x, y, a, b; ring).
  rewrite E1, E2. assert (CS : x * a + y * b <= D * r).
  { apply Rsqr_incr_0_var; [|apply Rmult_le_pos; assumption]. unfold Rsqr. replace (D * r * (D * r)) with ((x * x + y * y) * (a * a + b * b)) by (rewrite DD, Z'; ring).
    assert (0 <= (x * b - y * a) ^ 2) by apply pow2_ge_0. nra. }
  destruct (Req_dec D 0) as [Q|Q].
  - assert (x = 0 /\ y = 0) as [-> ->] by (rewrite Q in DD; split; nra). rewrite Q in CS. lra.
  - destruct (atan2_polar x y D ltac:(lra) DD) as [C1 C2]. change (atan2 y x) with u in C1, C2. rewrite <- C1, <- C2 at 1.
    replace (D * cos u * cos u + D * sin u * sin u) with (D * (sin u * sin u + cos u * cos u)) by ring. rewrite S. lra.
Qed.
Lemma fit2_first l n angles f p0 l' a : lstsq_good lstsq l -> fit2 lstsq l n angles = Ok f -> l = p0 :: l' -> angles_used n angles = 0 :: a ->
  exists g gs, generated f = g :: gs /\ dist2sq g (center f) = radius f ^ 2 /\ forall z, dist2sq z (center f) = radius f ^ 2 -> dist2sq p0 g <= dist2sq p0 z.
Proof.
  intros G E El A. destruct (fit2_generated l n angles f G E) as [_ On].
  destruct (le_lt_dec 3 (length l)) as [L|L]; [|rewrite fit2_few in E by exact L; discriminate].
  destruct (fit2_ok l n angles L G) as (c & r & P & M & q0 & q' & El' & F). rewrite F in E. injection E as <-. cbn [radius center generated] in *.
  assert (q0 = p0) by congruence. subst q0. rewrite A in *. cbn [map] in *. eexists. eexists. split; [reflexivity|]. split; [apply On; now left|].
  cbv zeta. destruct (Rltb 0 (signed_area l)); [rewrite Rplus_0_r|rewrite Rminus_0_r]; apply (polar c r p0 P).
Qed.
Lemma fit2_direction l n angles f a : lstsq_good lstsq l -> fit2 lstsq l n angles = Ok f -> angles_used n angles = 0 :: a ->
  exists g gs, generated f = g :: gs /\ length gs = length a /\ forall i t h, nth_error a i = Some t -> nth_error gs i = Some h ->
    cross2 (psub g (center f)) (psub h (center f)) = (if Rltb 0 (shoelace l) then 1 else -1) * radius f ^ 2 * sin t.
Proof.
  intros G E A. destruct (le_lt_dec 3 (length l)) as [L|L]; [|rewrite fit2_few in E by exact L; discriminate].
  destruct (fit2_ok l n angles L G) as (c & r & P & M & q0 & q' & El' & F). rewrite F in E. injection E as <-. cbn [radius center generated] in *.
  rewrite A. cbn [map]. eexists. eexists. split; [reflexivity|]. split; [apply map_length|]. intros i t h T H. rewrite nth_error_map, T in H. injection H as <-.
  rewrite area_shoelace. set (u := atan2 _ _). cbv zeta. unfold cross2, psub. cbn [fst snd].
  destruct (Rltb 0 (shoelace l)).
  - rewrite Rplus_0_r. rewrite cos_plus, sin_plus. pose proof (sin2_cos2 u) as S. unfold Rsqr in S.
    transitivity (r ^ 2 * sin t * (sin u * sin u + cos u * cos u)); [ring|]. rewrite S. ring.
  - rewrite Rminus_0_r. rewrite cos_minus, sin_minus. pose proof (sin2_cos2 u) as S. unfold Rsqr in S.
    transitivity (- (r ^ 2 * sin t * (sin u * sin u + cos u * cos u))); [ring|]. rewrite S. ring.
Qed.
End Fit.
Lemma full_turn_length n : length (full_turn n) = n.
Proof. destruct n as [|[|n]]; try reflexivity. unfold full_turn. rewrite map_length, seq_length. reflexivity. Qed.
Lemma full_turn_nth n i : (2 <= n)%nat -> (i < n)%nat -> nth_error (full_turn n) i = Some (2 * PI * (INR i / INR (n - 1))).
Proof.
  intros N I. destruct n as [|[|n]]; try lia. unfold full_turn. rewrite nth_error_map. rewrite (nth_error_nth' _ 0%nat) by (rewrite seq_length; exact I).
  rewrite seq_nth by exact I. reflexivity.
Qed.
