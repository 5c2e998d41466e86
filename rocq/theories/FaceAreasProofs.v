From Coquelicot Require Import Coquelicot.
From Verif Require Import Base RBase Geom FaceAreas FaceAreasSpec.
Local Open Scope R_scope.

Lemma areaEps_pos : 0 < areaEps. Proof. unfold areaEps. lra. Qed.

Lemma area_normal_spec v0 v1 v2 :
  let c := tri_cross v0 v1 v2 in
  fst (area_normal v0 v1 v2) = norm3 c / 2 /\
  snd (area_normal v0 v1 v2) = div3 c (Rmax (norm3 c) areaEps).
Proof.
  cbv zeta. unfold area_normal, tri_cross, norm3, dot3, cross3, sub3, div3. cbn [x3 y3 z3 fst snd].
  set (n := sqrt _). split; [reflexivity|].
  unfold Rmax. destruct (Rltb_spec n areaEps) as [H|H], (Rle_dec n areaEps) as [H'|H']; try lra.
  - reflexivity.
  - assert (n = areaEps) as -> by lra. reflexivity.
  - reflexivity.
Qed.

Definition upd_slot (k : nat) (a : axis) (v0 v1 v2 : vec3) (t : R) : vec3 * vec3 * vec3 :=
  match k with O => (set_coord a v0 t, v1, v2) | 1%nat => (v0, set_coord a v1 t, v2) | _ => (v0, v1, set_coord a v2 t) end.
Definition slot {A} (k : nat) (p : A * A * A) : A := let '(a, b, c) := p in match k with O => a | 1%nat => b | _ => c end.
Definition loss3 ga gn (p : vec3 * vec3 * vec3) : R := let '(a, b, c) := p in tri_loss ga gn a b c.

(* d/dt of ga*n/2 + (g.c)/n for polynomials cx cy cz *)
Lemma loss_derive (cx cy cz : R -> R) dx dy dz ga g0 g1 g2 t :
  is_derive cx t dx -> is_derive cy t dy -> is_derive cz t dz ->
  let n := sqrt (cx t * cx t + cy t * cy t + cz t * cz t) in
  0 < n ->
  is_derive (fun s => let m := sqrt (cx s * cx s + cy s * cy s + cz s * cz s) in
     ga * (m / 2) + (g0 * cx s + g1 * cy s + g2 * cz s) / m) t
   (let k := dx * cx t + dy * cy t + dz * cz t in
    ga * (k / 2 / n) + g0 * (dx / n - cx t * k / n ^ 3) + g1 * (dy / n - cy t * k / n ^ 3) + g2 * (dz / n - cz t * k / n ^ 3)).
Proof.
  intros Hx Hy Hz n Hn.
  assert (Hs : 0 < cx t * cx t + cy t * cy t + cz t * cz t).
  { destruct (Rlt_le_dec 0 (cx t * cx t + cy t * cy t + cz t * cz t)) as [|L]; [assumption|].
    unfold n in Hn. rewrite sqrt_neg_0 in Hn by exact L. lra. }
  assert (En : n * n = cx t * cx t + cy t * cy t + cz t * cz t) by (apply sqrt_sqrt; lra).
  assert (Ex : Derive cx t = dx) by (apply is_derive_unique; exact Hx).
  assert (Ey : Derive cy t = dy) by (apply is_derive_unique; exact Hy).
  assert (Ez : Derive cz t = dz) by (apply is_derive_unique; exact Hz).
  cbv zeta. auto_derive.
  - repeat split; try (eexists; eassumption); try exact Hs; fold n; lra.
  - change (fun x => cx x) with cx. change (fun x => cy x) with cy. change (fun x => cz x) with cz.
    rewrite Ex, Ey, Ez. fold n. clear Hx Hy Hz Ex Ey Ez. generalize dependent n. intros n Hn En.
    field_simplify_eq; [|lra].
    replace (n ^ 3) with (n * (n * n)) by ring. try rewrite En; ring.
Qed.

Definition good_slot (k : nat) (a : axis) (v0 v1 v2 gn : vec3) : Prop := k = 1%nat -> a = AZ -> harmless v0 v1 v2 gn.

Lemma loss3_unfold ga gn v0 v1 v2 :
  tri_loss ga gn v0 v1 v2 =
  let cx := (y3 v1 - y3 v0) * (z3 v2 - z3 v0) - (z3 v1 - z3 v0) * (y3 v2 - y3 v0) in
  let cy := (z3 v1 - z3 v0) * (x3 v2 - x3 v0) - (x3 v1 - x3 v0) * (z3 v2 - z3 v0) in
  let cz := (x3 v1 - x3 v0) * (y3 v2 - y3 v0) - (y3 v1 - y3 v0) * (x3 v2 - x3 v0) in
  let m := sqrt (cx * cx + cy * cy + cz * cz) in
  ga * (m / 2) + (x3 gn * cx + y3 gn * cy + z3 gn * cz) / m.
Proof. unfold tri_loss, tri_cross, norm3, dot3, cross3, sub3. cbn [x3 y3 z3]. reflexivity. Qed.


Lemma affine_derive (f : R -> R) t : (forall s, f s = f 0 + s * (f 1 - f 0)) -> is_derive f t (f 1 - f 0).
Proof.
  intros H. apply (is_derive_ext (fun s => f 0 + s * (f 1 - f 0))); [intros s; symmetry; apply H|].
  auto_derive; [exact I|ring].
Qed.

Lemma loss_affine (cx cy cz : R -> R) ga g0 g1 g2 t N :
  (forall s, cx s = cx 0 + s * (cx 1 - cx 0)) -> (forall s, cy s = cy 0 + s * (cy 1 - cy 0)) ->
  (forall s, cz s = cz 0 + s * (cz 1 - cz 0)) ->
  N = sqrt (cx t * cx t + cy t * cy t + cz t * cz t) -> 0 < N ->
  is_derive (fun s => ga * (sqrt (cx s * cx s + cy s * cy s + cz s * cz s) / 2)
     + (g0 * cx s + g1 * cy s + g2 * cz s) / sqrt (cx s * cx s + cy s * cy s + cz s * cz s)) t
   ((let k := (cx 1 - cx 0) * cx t + (cy 1 - cy 0) * cy t + (cz 1 - cz 0) * cz t in
    ga * (k / 2 / N) + g0 * ((cx 1 - cx 0) / N - cx t * k / N ^ 3)
    + g1 * ((cy 1 - cy 0) / N - cy t * k / N ^ 3) + g2 * ((cz 1 - cz 0) / N - cz t * k / N ^ 3))).
Proof.
  intros Hx Hy Hz -> HN.
  exact (loss_derive cx cy cz _ _ _ ga g0 g1 g2 t (affine_derive _ t Hx) (affine_derive _ t Hy) (affine_derive _ t Hz) HN).
Qed.

Lemma slot_gradient k a v0 v1 v2 ga gn : (k < 3)%nat ->
  areaEps <= norm3 (tri_cross v0 v1 v2) -> good_slot k a v0 v1 v2 gn ->
  is_derive (fun t => loss3 ga gn (upd_slot k a v0 v1 v2 t)) (coord a (slot k (v0, v1, v2)))
    (coord a (slot k (area_normal_bwd v0 v1 v2 ga gn))).
Proof.
  intros Hk Hn Hg. pose proof areaEps_pos as Hp.
  destruct v0 as [x0 y0 z0], v1 as [x1 y1 z1], v2 as [x2 y2 z2], gn as [g0 g1 g2].
  unfold good_slot, harmless, coord, tri_cross, norm3, dot3, cross3, sub3, coord in Hn, Hg. cbn [x3 y3 z3] in Hn, Hg.
  set (n := sqrt _) in Hn. assert (Hn0 : 0 < n) by lra.
  unfold area_normal_bwd; cbn [x3 y3 z3]; cbv zeta. fold n.
  replace (Rltb n areaEps) with false by (destruct (Rltb_spec n areaEps); [lra|reflexivity]).
  destruct k as [|[|[|k]]]; [| | |lia]; destruct a;
  cbn [upd_slot slot set_coord coord loss3 x3 y3 z3].
  all: eapply is_derive_ext; [intros t; symmetry; apply loss3_unfold|]; cbn [x3 y3 z3]; cbv zeta.
  all: match goal with Hn0 : 0 < ?n |- is_derive (fun t => ?ga * (sqrt (@?cx t * @?cx' t + @?cy t * @?cy' t + @?cz t * @?cz' t) / 2)
        + (?g0 * _ + ?g1 * _ + ?g2 * _) / _) ?u _ =>
     evar_last; [apply (loss_affine cx cy cz ga g0 g1 g2 u n); [intros s; ring|intros s; ring|intros s; ring|reflexivity|exact Hn0]|] end.
  all: cbv beta zeta.
  all: try (field; lra).
  specialize (Hg eq_refl eq_refl). 
  set (A := x2 - x0) in *. set (B := y2 - y0) in *.
  set (cx := (y1 - y0) * (z2 - z0) - (z1 - z0) * B) in *.
  set (cy := (z1 - z0) * A - (x1 - x0) * (z2 - z0)) in *.
  set (cz := (x1 - x0) * B - (y1 - y0) * A) in *.
  match goal with |- _ = ?r => transitivity (r + (cx - cy) * (A * cy - B * cx) * (1 / n) ^ 3 * g1); [unfold cx, cy; field; lra|] end.
  destruct Hg as [->|[E|E]]; [ring|rewrite E; ring|rewrite E; ring].
Qed.

(* ---- the whole operator ---- *)
Lemma at_vert vs i : (0 <= i < Z.of_nat (length vs))%Z -> vert_at vs i = Ok (at_ vs i).
Proof.
  intros H. unfold vert_at, rget, at_. destruct (Z.ltb_spec i 0) as [L|L]; [lia|].
  rewrite (nth_error_nth' vs (V3 0 0 0)) by lia. reflexivity.
Qed.

Lemma face_verts_ok vs f : in_range (length vs) f ->
  face_verts vs f = let '(i0, i1, i2) := f in Ok (at_ vs i0, at_ vs i1, at_ vs i2).
Proof. destruct f as [[i0 i1] i2]. intros (H0 & H1 & H2). unfold face_verts. rewrite !at_vert by assumption. reflexivity. Qed.

Lemma forward_spec vs fs : List.Forall (in_range (length vs)) fs ->
  face_areas_normals vs fs = Ok (map (fun f => let '(i0, i1, i2) := f in
    let c := tri_cross (at_ vs i0) (at_ vs i1) (at_ vs i2) in (norm3 c / 2, div3 c (Rmax (norm3 c) areaEps))) fs).
Proof.
  unfold face_areas_normals. induction 1 as [|f fs H _ IH]; [reflexivity|].
  cbn [rmap map]. rewrite face_verts_ok by exact H. destruct f as [[i0 i1] i2]. cbn [rbind]. rewrite IH. cbn [rbind].
  destruct (area_normal_spec (at_ vs i0) (at_ vs i1) (at_ vs i2)) as (E1 & E2).
  destruct (area_normal _ _ _) as [u v]. cbn in E1, E2. subst. reflexivity.
Qed.

(* the three additions of a face *)
Definition adds_of (vs : list vec3) (fg : (Z * Z * Z) * (R * vec3)) : list (nat * vec3) :=
  let '(i0, i1, i2) := fst fg in
  let '(g0, g1, g2) := area_normal_bwd (at_ vs i0) (at_ vs i1) (at_ vs i2) (fst (snd fg)) (snd (snd fg)) in
  [(Z.to_nat i0, g0); (Z.to_nat i1, g1); (Z.to_nat i2, g2)].

Lemma all_adds_ok vs fs g : List.Forall (in_range (length vs)) fs ->
  all_adds vs fs g = Ok (concat (map (adds_of vs) (combine fs g))).
Proof.
  intros H. unfold all_adds.
  assert (E : rmap (fun fg => face_adds vs (fst fg) (fst (snd fg)) (snd (snd fg))) (combine fs g)
              = Ok (map (adds_of vs) (combine fs g))).
  { revert g. induction H as [|f fs H _ IH]; intros [|p g]; try reflexivity. cbn [combine rmap map].
    rewrite IH. unfold face_adds, adds_of. cbn [fst snd]. rewrite face_verts_ok by exact H.
    destruct f as [[i0 i1] i2]. cbn [rbind]. destruct (area_normal_bwd _ _ _ _ _) as [[? ?] ?]. reflexivity. }
  unfold face in *. rewrite E. reflexivity.
Qed.

Definition adds_in (n : nat) (l : list (nat * vec3)) : Prop := List.Forall (fun w => (fst w < n)%nat) l.

Lemma apply_adds_spec a l : forall acc, adds_in (length acc) l ->
  exists out, fold_left apply_add l (Ok acc) = Ok out /\ length out = length acc /\
    forall w, coord a (nth w out (V3 0 0 0)) =
      coord a (nth w acc (V3 0 0 0)) + rsum (map (fun p => if (fst p =? w)%nat then coord a (snd p) else 0) l).
Proof.
  induction l as [|[j v] l IH]; intros acc H.
  - exists acc. repeat split; auto. intros w. cbn. ring.
  - unfold adds_in in H. rewrite Forall_cons_iff in H. destruct H as [Hj H]. cbn [fst] in Hj.
    destruct (nth_error acc j) as [x|] eqn:E; [|apply nth_error_None in E; lia].
    destruct (upd_ok acc j (add3 x v)) as [acc' E']; [exact Hj|].
    pose proof (upd_length _ _ _ _ E') as L.
    destruct (IH acc') as (out & Ho & Hl & Hs); [unfold adds_in; rewrite L; exact H|].
    exists out. split.
    { cbn [fold_left]. unfold apply_add at 2. cbn [rbind fst snd]. unfold rget. rewrite E. cbn [rbind]. rewrite E'. exact Ho. }
    split; [lia|]. intros w. rewrite Hs. cbn [map rsum fold_right fst snd].
    fold (rsum (map (fun p => if (fst p =? w)%nat then coord a (snd p) else 0) l)).
    destruct (Nat.eqb_spec j w) as [->|N].
    + rewrite (nth_error_nth _ _ _ (upd_same _ _ _ _ E')), (nth_error_nth _ _ _ E).
      destruct a; unfold add3; cbn; ring.
    + assert (EE : nth w acc' (V3 0 0 0) = nth w acc (V3 0 0 0)).
      { pose proof (upd_other _ _ w _ _ E' N) as Q.
        destruct (nth_error acc w) as [y|] eqn:F.
        - rewrite (nth_error_nth _ _ _ F), (nth_error_nth _ _ _ Q). reflexivity.
        - rewrite !nth_overflow; [reflexivity| |]; apply nth_error_None; assumption. }
      rewrite EE. ring.
Qed.

Lemma adds_of_in vs fg : in_range (length vs) (fst fg) -> adds_in (length vs) (adds_of vs fg).
Proof.
  destruct fg as [[[i0 i1] i2] [ga gn]]. intros (H0 & H1 & H2). unfold adds_of. cbn [fst snd].
  destruct (area_normal_bwd _ _ _ _ _) as [[? ?] ?]. repeat constructor; cbn; lia.
Qed.

Lemma rsum_perm' (l l' : list R) : Permutation l l' -> rsum l = rsum l'.
Proof. induction 1; cbn in *; try lra. fold (rsum l) (rsum l'). lra. Qed.

Lemma rsum_app' (l l' : list R) : rsum (l ++ l') = rsum l + rsum l'.
Proof. unfold rsum. induction l as [|x l IH]; cbn [app fold_right]; [ring|rewrite IH; ring]. Qed.

Lemma nth_repeat_zero w n : nth w (repeat (V3 0 0 0) n) (V3 0 0 0) = V3 0 0 0.
Proof. revert w. induction n; intros [|w]; cbn; auto. Qed.

(* any order of additions: the sum over incident corners *)
Lemma bwd_sums vs fs g l a : List.Forall (in_range (length vs)) fs ->
  Permutation l (concat (map (adds_of vs) (combine fs g))) ->
  exists out, fold_left apply_add l (Ok (repeat (V3 0 0 0) (length vs))) = Ok out /\ length out = length vs /\
    forall w, coord a (nth w out (V3 0 0 0)) =
      rsum (map (fun fg => rsum (map (fun p => if (fst p =? w)%nat then coord a (snd p) else 0) (adds_of vs fg))) (combine fs g)).
Proof.
  intros H HP.
  destruct (apply_adds_spec a l (repeat (V3 0 0 0) (length vs))) as (out & Ho & Hl & Hs).
  - rewrite repeat_length. unfold adds_in. rewrite Forall_forall. intros p Hp.
    apply (Permutation_in _ HP) in Hp. apply in_concat in Hp. destruct Hp as (x & Hx & Hp).
    apply in_map_iff in Hx. destruct Hx as (fg & <- & Hfg).
    assert (I : in_range (length vs) (fst fg)).
    { destruct fg as [f q]. apply in_combine_l in Hfg. rewrite Forall_forall in H. apply H. exact Hfg. }
    pose proof (adds_of_in vs fg I) as Q. unfold adds_in in Q. rewrite Forall_forall in Q. apply Q. exact Hp.
  - exists out. rewrite repeat_length in Hl. split; [exact Ho|]. split; [exact Hl|]. intros w. rewrite Hs, nth_repeat_zero.
    rewrite (rsum_perm' _ _ (Permutation_map (fun p => if (fst p =? w)%nat then coord a (snd p) else 0) HP)).
    replace (coord a (V3 0 0 0)) with 0 by (destruct a; reflexivity). rewrite Rplus_0_l.
    generalize (combine fs g). intros L. induction L as [|fg L IH]; [reflexivity|].
    cbn [map concat]. rewrite map_app. cbn [rsum fold_right map].
    fold (rsum (map (fun fg => rsum (map (fun p => if (fst p =? w)%nat then coord a (snd p) else 0) (adds_of vs fg))) L)).
    rewrite <- IH. rewrite rsum_app'. reflexivity.
Qed.

(* ---- derivative of the total loss ---- *)
Lemma move_at vs w a t i : (w < length vs)%nat -> (0 <= i)%Z ->
  at_ (move vs w a t) i = if (Z.to_nat i =? w)%nat then set_coord a (at_ vs i) t else at_ vs i.
Proof.
  intros Hw Hi. unfold at_, move. destruct (nth_error vs w) as [v|] eqn:E; [|apply nth_error_None in E; lia].
  assert (L : length (firstn w vs) = w) by (rewrite firstn_length; lia).
  destruct (Nat.eqb_spec (Z.to_nat i) w) as [->|N].
  - rewrite app_nth2 by lia. rewrite L, Nat.sub_diag. cbn. rewrite (nth_error_nth _ _ _ E). reflexivity.
  - destruct (lt_dec (Z.to_nat i) w) as [H|H].
    + rewrite app_nth1 by lia. rewrite <- (firstn_skipn w vs) at 2. rewrite app_nth1 by lia. reflexivity.
    + rewrite app_nth2 by lia. rewrite L. destruct (Z.to_nat i - w)%nat as [|m] eqn:Em; [lia|]. cbn.
      rewrite <- (firstn_skipn (S w) vs) at 2.
      assert (L' : length (firstn (S w) vs) = S w) by (rewrite firstn_length; lia).
      rewrite (app_nth2 (firstn (S w) vs)) by (rewrite L'; lia). rewrite L'. f_equal. lia.
Qed.

Lemma one_face_derive vs w a fg : (w < length vs)%nat -> in_range (length vs) (fst fg) -> distinct (fst fg) ->
  corner_ok vs w a fg ->
  is_derive (fun t => let '(i0, i1, i2) := fst fg in
      tri_loss (fst (snd fg)) (snd (snd fg)) (at_ (move vs w a t) i0) (at_ (move vs w a t) i1) (at_ (move vs w a t) i2))
    (coord a (nth w vs (V3 0 0 0)))
    (rsum (map (fun p => if (fst p =? w)%nat then coord a (snd p) else 0) (adds_of vs fg))).
Proof.
  destruct fg as [[[i0 i1] i2] [ga gn]]. unfold corner_ok, adds_of. cbn [fst snd].
  intros Hw (H0 & H1 & H2) (D1 & D2 & D3) HC.
  eapply is_derive_ext.
  { intros t. rewrite !move_at by lia. reflexivity. }
  pose proof (slot_gradient 0 a (at_ vs i0) (at_ vs i1) (at_ vs i2) ga gn ltac:(lia)) as G0.
  pose proof (slot_gradient 1 a (at_ vs i0) (at_ vs i1) (at_ vs i2) ga gn ltac:(lia)) as G1.
  pose proof (slot_gradient 2 a (at_ vs i0) (at_ vs i1) (at_ vs i2) ga gn ltac:(lia)) as G2.
  cbn [upd_slot slot loss3] in G0, G1, G2.
  destruct (area_normal_bwd _ _ _ _ _) as [[g0 g1] g2] eqn:E. cbn [slot] in G0, G1, G2.
  cbn [map rsum fold_right fst snd].
  destruct (Nat.eqb_spec (Z.to_nat i0) w) as [E0|E0], (Nat.eqb_spec (Z.to_nat i1) w) as [E1|E1],
    (Nat.eqb_spec (Z.to_nat i2) w) as [E2|E2]; try lia.
  - destruct (HC (or_introl E0)) as (A & _). rewrite <- E0. evar_last; [apply G0; [exact A|intros ?; lia]|]. ring.
  - destruct (HC (or_intror (or_introl E1))) as (A & B). rewrite <- E1. evar_last; [apply G1; [exact A|intros _; apply B; exact E1]|]. ring.
  - destruct (HC (or_intror (or_intror E2))) as (A & _). rewrite <- E2. evar_last; [apply G2; [exact A|intros ?; lia]|]. ring.
  - evar_last; [apply @is_derive_const|]. unfold zero. cbn. ring.
Qed.

Lemma loss_total_derive vs w a L : (w < length vs)%nat ->
  List.Forall (fun fg => in_range (length vs) (fst fg) /\ distinct (fst fg) /\ corner_ok vs w a fg) L ->
  is_derive (fun t => rsum (map (fun fg => let '(i0, i1, i2) := fst fg in
      tri_loss (fst (snd fg)) (snd (snd fg)) (at_ (move vs w a t) i0) (at_ (move vs w a t) i1) (at_ (move vs w a t) i2)) L))
    (coord a (nth w vs (V3 0 0 0)))
    (rsum (map (fun fg => rsum (map (fun p => if (fst p =? w)%nat then coord a (snd p) else 0) (adds_of vs fg))) L)).
Proof.
  intros Hw. induction 1 as [|fg L (A & B & C) _ IH].
  - cbn. evar_last; [apply @is_derive_const|reflexivity].
  - cbn [map rsum fold_right]. apply @is_derive_plus; [apply one_face_derive; assumption|exact IH].
Qed.

Theorem bwd_gradient vs fs g w a l : (w < length vs)%nat ->
  List.Forall (in_range (length vs)) fs -> List.Forall distinct fs ->
  List.Forall (corner_ok vs w a) (combine fs g) ->
  Permutation l (concat (map (adds_of vs) (combine fs g))) ->
  exists out, fold_left apply_add l (Ok (repeat (V3 0 0 0) (length vs))) = Ok out /\ length out = length vs /\
    derivable_pt_lim (fun t => faces_loss fs g (move vs w a t)) (coord a (nth w vs (V3 0 0 0))) (coord a (nth w out (V3 0 0 0))).
Proof.
  intros Hw HR HD HC HP. destruct (bwd_sums vs fs g l a HR HP) as (out & Ho & Hl & Hs).
  exists out. split; [exact Ho|]. split; [exact Hl|]. rewrite Hs.
  apply is_derive_Reals. unfold faces_loss. apply loss_total_derive; [exact Hw|].
  rewrite Forall_forall in *. intros [f q] I. cbn [fst]. pose proof (in_combine_l _ _ _ _ I) as I'.
  split; [apply HR; exact I'|]. split; [apply HD; exact I'|]. apply HC. exact I.
Qed.

(* translating and scaling a triangle *)
Lemma tri_cross_translate v0 v1 v2 o : tri_cross (add3 v0 o) (add3 v1 o) (add3 v2 o) = tri_cross v0 v1 v2.
Proof. unfold tri_cross, cross3, sub3, add3. cbn [x3 y3 z3]. f_equal; ring. Qed.
Lemma tri_cross_scale v0 v1 v2 s : tri_cross (scal3 s v0) (scal3 s v1) (scal3 s v2) = scal3 (s * s) (tri_cross v0 v1 v2).
Proof. unfold tri_cross, cross3, sub3, scal3. cbn [x3 y3 z3]. f_equal; ring. Qed.

Lemma v1z_wrong :
  let v0 := V3 0 0 0 in let v1 := V3 0 0 1 in let v2 := V3 3 4 0 in let gn := V3 0 1 0 in
  / 1000000 < norm3 (tri_cross v0 v1 v2) /\
  ~ derivable_pt_lim (fun t => tri_loss 0 gn v0 (set_coord AZ v1 t) v2) (z3 v1)
      (z3 (snd (fst (area_normal_bwd v0 v1 v2 0 gn)))).
Proof.
  intros v0 v1 v2 gn.
  assert (N : norm3 (tri_cross v0 v1 v2) = 5).
  { unfold norm3, tri_cross, dot3, cross3, sub3, v0, v1, v2. cbn [x3 y3 z3].
    replace (_ + _) with (5 * 5) by ring. apply sqrt_square. lra. }
  split; [rewrite N; lra|]. intros D. apply is_derive_Reals in D.
  assert (D' : is_derive (fun t => tri_loss 0 gn v0 (set_coord AZ v1 t) v2) (z3 v1) 0).
  { eapply is_derive_ext; [intros t; symmetry; apply loss3_unfold|]. unfold gn, v0, v1, v2; cbn [set_coord x3 y3 z3]; cbv zeta.
    match goal with |- is_derive (fun t => ?ga * (sqrt (@?cx t * _ + @?cy t * _ + @?cz t * _) / 2)
        + (?g0 * _ + ?g1 * _ + ?g2 * _) / _) ?u _ =>
     evar_last; [apply (loss_affine cx cy cz ga g0 g1 g2 u 5); [intros s; ring|intros s; ring|intros s; ring| |lra]|] end.
    - symmetry. match goal with |- sqrt ?e = _ => replace e with (5 * 5) by ring end. apply sqrt_square; lra.
    - cbv beta zeta. field. }
  pose proof (is_derive_unique _ _ _ D) as E1. pose proof (is_derive_unique _ _ _ D') as E2.
  pose proof (eq_trans (eq_sym E2) E1) as E3. clear E1 E2. revert E3. unfold area_normal_bwd, gn. cbv zeta. cbn [x3 y3 z3 fst snd].
  match goal with |- context [sqrt ?e] => replace (sqrt e) with 5 end.
  - replace (Rltb 5 areaEps) with false by (unfold areaEps; destruct (Rltb_spec 5 (/ 1000000)); [lra|reflexivity]).
    unfold v0, v1, v2. cbn [x3 y3 z3]. intros E. field_simplify in E. lra.
Qed.
