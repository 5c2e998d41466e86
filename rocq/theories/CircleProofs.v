From Coq Require Import Reals List Bool Arith Lra Lia Psatz Permutation.
From Verif Require Import Base RBase Geom Rotation RotationProofs Circle CircleSpec.
Import ListNotations.
Local Open Scope R_scope.

(* ---- the signed area ---- *)
Lemma last_any {A} : forall (l : list A) b d d', last (b :: l) d = last (b :: l) d'.
Proof. induction l as [|c l IH]; intros b d d'; [reflexivity|]. change (last (c :: l) d = last (c :: l) d'). apply IH. Qed.
Definition shoe (l : list pt) : R := rsum (turns l).
Lemma turns_cons p q l : turns (p :: q :: l) = cross2 p q :: turns (q :: l).
Proof. cbn [turns]. f_equal. unfold cross2. ring. Qed.
Lemma fan p0 : forall l a, rsum (turns (map (fun q => psub q p0) (a :: l))) = shoe (a :: l) + cross2 p0 a + cross2 (last (a :: l) a) p0.
Proof.
  intros l. induction l as [|b l IH]; intros a.
  - cbn. unfold cross2, shoe. cbn. ring.
  - cbn [map]. rewrite turns_cons, rsum_cons. change (psub b p0 :: map (fun q => psub q p0) l) with (map (fun q => psub q p0) (b :: l)). rewrite (IH b).
    unfold shoe. rewrite (turns_cons a b l), rsum_cons. change (last (a :: b :: l) a) with (last (b :: l) a).
    replace (last (b :: l) a) with (last (b :: l) b) by apply last_any.
    unfold cross2, psub. cbn [fst snd]. ring.
Qed.
Lemma edges_sum p : forall l a, rsum (map (fun e => cross2 (fst e) (snd e)) (combine (a :: l) (l ++ [p]))) = shoe (a :: l) + cross2 (last (a :: l) a) p.
Proof.
  induction l as [|b l IH]; intros a.
  - cbn. unfold shoe. cbn. ring.
  - change (combine (a :: b :: l) ((b :: l) ++ [p])) with ((a, b) :: combine (b :: l) (l ++ [p])). cbn [map fst snd]. rewrite rsum_cons, IH.
    unfold shoe. rewrite (turns_cons a b l), rsum_cons. change (last (a :: b :: l) a) with (last (b :: l) a).
    replace (last (b :: l) a) with (last (b :: l) b) by apply last_any.
    ring.
Qed.
Lemma area_shoelace l : signed_area l = shoelace l.
Proof.
  destruct l as [|p [|a l]].
  - unfold signed_area, shoelace. cbn. lra.
  - unfold signed_area, shoelace. cbn. unfold cross2. cbn. lra.
  - unfold signed_area, shoelace. rewrite fan. unfold edges. rewrite edges_sum. unfold shoe. rewrite (turns_cons p a l), rsum_cons.
    change (last (p :: a :: l) p) with (last (a :: l) p).
    replace (last (a :: l) p) with (last (a :: l) a) by apply last_any.
    field.
Qed.
Lemma shoe_app l : forall a b m, shoe ((l ++ [a]) ++ b :: m) = shoe (l ++ [a]) + cross2 a b + shoe (b :: m).
Proof.
  induction l as [|c l IH]; intros a b m.
  - cbn [app]. unfold shoe. rewrite turns_cons, rsum_cons. cbn [turns]. rewrite rsum_nil. ring.
  - destruct l as [|d l].
    + cbn [app]. unfold shoe. rewrite !turns_cons, !rsum_cons. cbn [turns]. rewrite rsum_nil. ring.
    + specialize (IH a b m). cbn [app] in *. unfold shoe in *. rewrite !turns_cons, !rsum_cons. rewrite turns_cons in IH || idtac. rewrite IH. ring.
Qed.
Lemma shoe_rev l : shoe (rev l) = - shoe l.
Proof.
  induction l as [|a l IH]; [cbn; unfold shoe; cbn; ring|]. cbn [rev]. destruct l as [|b l]; [cbn; unfold shoe; cbn; ring|].
  cbn [rev] in *. rewrite (shoe_app (rev l) b a []). rewrite IH. unfold shoe. rewrite (turns_cons a b l), rsum_cons. cbn [turns]. rewrite rsum_nil. unfold cross2. ring.
Qed.
Lemma area_closed a l : signed_area (a :: l) = (shoe (a :: l) + cross2 (last (a :: l) a) a) / 2.
Proof. rewrite area_shoelace. unfold shoelace, edges. rewrite edges_sum. reflexivity. Qed.
Lemma last_snoc (l : list pt) x d : last (l ++ [x]) d = x.
Proof. apply last_last. Qed.
Lemma area_rotate a l : signed_area (l ++ [a]) = signed_area (a :: l).
Proof.
  destruct l as [|b l]; [reflexivity|]. rewrite (area_closed a (b :: l)). change ((b :: l) ++ [a]) with (b :: (l ++ [a])). rewrite (area_closed b (l ++ [a])).
  change (b :: l ++ [a]) with ((b :: l) ++ [a]). rewrite last_snoc. f_equal.
  destruct (exists_last (l := b :: l)) as (m & z & E); [discriminate|]. rewrite E. rewrite (shoe_app m z a []).
  change (last (a :: m ++ [z]) a) with (last ([a] ++ (m ++ [z])) a). rewrite app_assoc, last_snoc.
  assert (S1 : shoe (a :: m ++ [z]) = cross2 a b + shoe (m ++ [z])) by (rewrite <- E; unfold shoe; rewrite turns_cons, rsum_cons; reflexivity).
  rewrite S1. unfold shoe at 2. cbn [turns]. rewrite rsum_nil. ring.
Qed.
Lemma area_rev l : signed_area (rev l) = - signed_area l.
Proof.
  destruct l as [|a l]; [unfold signed_area; cbn; ring|]. cbn [rev]. rewrite area_rotate. destruct l as [|b l]; [unfold signed_area; cbn; ring|].
  rewrite !area_closed. destruct (exists_last (l := b :: l)) as (m & z & E); [discriminate|]. rewrite E, rev_app_distr. cbn [rev app].
  assert (A : shoe (a :: z :: rev m) = cross2 a z + shoe (rev (m ++ [z]))) by (unfold shoe; rewrite turns_cons, rsum_cons, rev_app_distr; reflexivity).
  rewrite A, shoe_rev, <- E. assert (B : shoe (a :: b :: l) = cross2 a b + shoe (b :: l)) by (unfold shoe; rewrite turns_cons, rsum_cons; reflexivity). rewrite B.
  assert (Lb : last (a :: z :: rev m) a = b).
  { change (a :: z :: rev m) with ([a] ++ rev (z :: nil) ++ rev m). rewrite <- rev_app_distr, <- E. cbn [rev]. rewrite app_assoc. apply last_snoc. }
  rewrite Lb. assert (Lz : last (a :: b :: l) a = z) by (rewrite E; change (a :: m ++ [z]) with ([a] ++ (m ++ [z])); rewrite app_assoc; apply last_snoc).
  rewrite Lz. unfold cross2. field.
Qed.

(* ---- least squares ---- *)
Definition err (s : R * R * R) (p : pt) : R := let '(s0, s1, s2) := s in fst p * s0 + snd p * s1 + 1 * s2 - (fst p ^ 2 + snd p ^ 2).
Definition obj (l : list pt) (s : R * R * R) : R := rsum (map (fun p => err s p ^ 2) l).
Lemma error_obj l s : error (map (fun p => (fst p, snd p, 1)) l) (map (fun p => fst p ^ 2 + snd p ^ 2) l) s = obj l s.
Proof.
  unfold error, obj, err. destruct s as [[s0 s1] s2]. f_equal. induction l as [|p l IH]; [reflexivity|]. cbn [map combine]. f_equal. exact IH.
Qed.
Definition minimal (l : list pt) (s : R * R * R) : Prop := forall s', obj l s <= obj l s'.
Lemma rsum_zero_sq {A} (f : A -> R) l : rsum (map (fun x => f x ^ 2) l) <= 0 -> forall x, In x l -> f x = 0.
Proof.
  induction l as [|a l IH]; intros H x [].
  - subst. cbn [map] in H. rewrite rsum_cons in H. assert (0 <= rsum (map (fun x => f x ^ 2) l)).
    { clear. induction l; cbn [map]; [cbn; lra|]. rewrite rsum_cons. pose proof (pow2_ge_0 (f a)). lra. }
    pose proof (pow2_ge_0 (f x)). assert (Z : f x ^ 2 = 0) by lra. replace (f x ^ 2) with (f x * f x) in Z by ring. apply Rmult_integral in Z. tauto.
  - apply IH; [|assumption]. cbn [map] in H. rewrite rsum_cons in H. pose proof (pow2_ge_0 (f a)). lra.
Qed.
Lemma obj_unique l s s' : not_on_a_line l -> minimal l s -> minimal l s' -> s = s'.
Proof.
  intros (p & q & r & P & Q & R0 & C) M M'. destruct s as [[a b] c] eqn:Es, s' as [[a' b'] c'] eqn:Es'.
  set (m := ((a + a') / 2, (b + b') / 2, (c + c') / 2)).
  assert (H : obj l m = (obj l (a, b, c) + obj l (a', b', c')) / 2 - rsum (map (fun p : pt => ((fst p * (a - a') + snd p * (b - b') + (c - c')) / 2) ^ 2) l)).
  { unfold obj. clear. induction l as [|x l IH]; [cbn; lra|]. cbn [map]. rewrite !rsum_cons, IH. unfold m, err. field. }
  assert (E : obj l (a, b, c) = obj l (a', b', c')) by (apply Rle_antisym; [apply M|apply M']).
  pose proof (M m) as Mm. rewrite H, E in Mm.
  assert (Z : forall p, In p l -> (fst p * (a - a') + snd p * (b - b') + (c - c')) / 2 = 0).
  { apply (rsum_zero_sq (fun p : pt => (fst p * (a - a') + snd p * (b - b') + (c - c')) / 2)). clear - Mm. lra. }
  pose proof (Z p P) as Zp. pose proof (Z q Q) as Zq. pose proof (Z r R0) as Zr. unfold cross2, psub in C. cbn [fst snd] in C.
  set (da := a - a') in *. set (db := b - b') in *. set (dc := c - c') in *.
  assert (A1 : (fst q - fst p) * da + (snd q - snd p) * db = 0) by lra. assert (A2 : (fst r - fst p) * da + (snd r - snd p) * db = 0) by lra.
  set (u := fst q - fst p) in *. set (v := snd q - snd p) in *. set (w := fst r - fst p) in *. set (z := snd r - snd p) in *.
  assert (D1 : (u * z - v * w) * da = 0) by (replace ((u * z - v * w) * da) with (z * (u * da + v * db) - v * (w * da + z * db)) by ring; rewrite A1, A2; ring).
  assert (D2 : (u * z - v * w) * db = 0) by (replace ((u * z - v * w) * db) with (u * (w * da + z * db) - w * (u * da + v * db)) by ring; rewrite A1, A2; ring).
  apply Rmult_integral in D1, D2. assert (da = 0) by tauto. assert (db = 0) by tauto. assert (dc = 0) by nra. unfold da, db, dc in *.
  f_equal; [f_equal|]; lra.
Qed.
Definition circle_of (c : pt) (r2 : R) : R * R * R := (2 * fst c, 2 * snd c, r2 - (fst c ^ 2 + snd c ^ 2)).
Lemma err_circle c r2 p : err (circle_of c r2) p = r2 - dist2sq p c.
Proof. unfold err, circle_of, dist2sq. ring. Qed.
Lemma obj_circle l c r2 : obj l (circle_of c r2) = misfit l c r2.
Proof. unfold obj, misfit. apply rsum_map_ext. intros p _. rewrite err_circle. reflexivity. Qed.
Lemma solution_circle s0 s1 s2 : (s0, s1, s2) = circle_of (s0 / 2, s1 / 2) (s2 + ((s0 / 2) ^ 2 + (s1 / 2) ^ 2)).
Proof. unfold circle_of. cbn [fst snd]. f_equal; [f_equal|]; field. Qed.
Lemma minimal_mean l s0 s1 s2 : minimal l (s0, s1, s2) -> rsum (map (err (s0, s1, s2)) l) = 0.
Proof.
  intros M. destruct l as [|p l]; [reflexivity|]. set (L := p :: l) in *. set (S := rsum (map (err (s0, s1, s2)) L)).
  assert (N : 0 < INR (length L)) by (apply lt_0_INR; cbn; lia).
  assert (H : forall t, obj L (s0, s1, s2 + t) = obj L (s0, s1, s2) + 2 * t * S + INR (length L) * t ^ 2).
  { intros t. unfold S, obj. clear. induction L as [|x L IH]; [cbn; lra|]. cbn [map length]. rewrite !rsum_cons, IH, S_INR. unfold err. ring. }
  pose proof (M (s0, s1, s2 + - S / INR (length L))) as Q. rewrite H in Q. set (n := INR (length L)) in *.
  replace (2 * (- S / n) * S + n * (- S / n) ^ 2) with (- (S * S / n)) in Q by (field; lra).
  assert (G : 2 * (- S / n) * S + n * (- S / n) ^ 2 = - (S * S / n)) by (field; lra).
  assert (K : S * S / n <= 0) by lra. assert (K2 : S * S <= 0).
  { apply Rmult_le_reg_r with (/ n); [apply Rinv_0_lt_compat, N|]. rewrite Rmult_0_l. exact K. }
  nra.
Qed.
