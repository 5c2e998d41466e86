(* Splatting: what one point adds. *)
From Coq Require Import ZArith Reals Lra.
From Verif Require Import Base RBase Geom Threads TexturesProofs Splat SplatSpec.
Local Open Scope R_scope.

Lemma loc_location align g p : loc align g p = location align g p.
Proof. unfold loc, location. destruct align; lra. Qed.
Lemma trunc_pos r : 0 <= r -> trunc r = Int_part r.
Proof. intros H. unfold trunc. destruct (Rltb_spec r 0); [lra|reflexivity]. Qed.
Lemma trunc_neg r : r < 0 -> trunc r = (- Int_part (- r))%Z.
Proof. intros H. unfold trunc. destruct (Rltb_spec r 0); [reflexivity|lra]. Qed.
Lemma in_grid_iff grid c : in_grid grid c = true <-> inside grid c.
Proof.
  destruct grid as ((gz, gy), gx), c as ((z, y), x). unfold in_grid, inside. rewrite andb_true_iff, !negb_true_iff, !orb_false_iff, !Z.leb_gt, !Z.ltb_ge. lia.
Qed.

(* ---- one axis ---- *)
Definition hits (l : R) (u : bool) (x : Z) : R := if Z.eqb (trunc l + up u) x then part u (l - IZR (trunc l)) else 0.
Lemma tent_zero t : t <= -1 \/ 1 <= t -> tent t = 0.
Proof. intros H. unfold tent. apply Rmax_left. destruct H; [rewrite Rabs_left1 by lra|rewrite Rabs_right by lra]; lra. Qed.
Lemma tent_pos t : 0 <= t <= 1 -> tent t = 1 - t.
Proof. intros H. unfold tent. rewrite Rabs_right by lra. apply Rmax_right. lra. Qed.
Lemma tent_neg t : -1 <= t <= 0 -> tent t = 1 + t.
Proof. intros H. unfold tent. rewrite Rabs_left1 by lra. rewrite Rmax_right; lra. Qed.
Lemma tent_range t : 0 <= tent t <= 1.
Proof. unfold tent. pose proof (Rabs_pos t). split; [apply Rmax_l|]. apply Rmax_lub; lra. Qed.
Lemma axis_tent l x : regular l -> (0 <= x)%Z -> hits l false x + hits l true x = tent (l - IZR x).
Proof.
  intros HL Hx. pose proof (IZR_le _ _ Hx) as HxR. unfold hits, up, part. rewrite Z.add_0_r. destruct HL as [HL|[->|HL]].
  - rewrite trunc_pos by exact HL. destruct (floor_bounds l) as (F1 & F2). set (f := Int_part l) in *.
    destruct (Z.eqb_spec f x) as [E0|N]; destruct (Z.eqb_spec (f + 1) x) as [E|N']; try lia.
    + rewrite <- E0. rewrite tent_pos by lra. lra.
    + rewrite <- E, plus_IZR. rewrite tent_neg by lra. lra.
    + rewrite tent_zero; [lra|]. destruct (Z.lt_total f x) as [Y|[Y|Y]]; [|lia|].
      * left. assert (f + 2 <= x)%Z by lia. apply IZR_le in H. rewrite plus_IZR in H. lra.
      * right. assert (x + 1 <= f)%Z by lia. apply IZR_le in H. rewrite plus_IZR in H. lra.
  - rewrite trunc_neg by lra. replace (- -1) with (IZR 1) by (cbn; lra). rewrite floor_IZR. rewrite tent_zero by lra.
    destruct (Z.eqb_spec (-(1)) x); [lia|]. destruct (Z.eqb_spec (- (1) + 1) x); cbn; lra.
  - rewrite trunc_neg by lra. assert (2 <= Int_part (- l))%Z by (apply floor_ge; lra). rewrite tent_zero by lra.
    destruct (Z.eqb_spec (- Int_part (- l)) x); [lia|]. destruct (Z.eqb_spec (- Int_part (- l) + 1) x); [lia|]. lra.
Qed.

(* ---- one point ---- *)
Definition at_cell (c : cell) (ws : list (cell * R)) : R := rsum (map (fun cw => if cell_dec (fst cw) c then snd cw else 0) ws).
Lemma at_cell_filter grid c ws : inside grid c -> at_cell c (filter (fun cw => in_grid grid (fst cw)) ws) = at_cell c ws.
Proof.
  intros Hc. unfold at_cell. induction ws as [|(c', w) ws IH]; [reflexivity|]. cbn [filter fst map]. destruct (in_grid grid c') eqn:E; cbn [map snd fst]; rewrite ?rsum_cons, IH.
  - reflexivity.
  - destruct (cell_dec c' c) as [->|]; [apply in_grid_iff in Hc; congruence|]. lra.
Qed.
Lemma at_cell_outside grid c ws : ~ inside grid c -> at_cell c (filter (fun cw => in_grid grid (fst cw)) ws) = 0.
Proof.
  intros Hc. unfold at_cell. apply rsum_map_zero. intros (c', w) Hw. apply filter_In in Hw. destruct Hw as (_ & Hw). cbn [fst snd] in *. destruct (cell_dec c' c) as [->|]; [|reflexivity]. apply in_grid_iff in Hw. contradiction.
Qed.
Lemma cell_if (z y x z' y' x' : Z) (a b c : R) :
  (if cell_dec (z, y, x) (z', y', x') then a * b * c else 0) = (if Z.eqb x x' then a else 0) * (if Z.eqb y y' then b else 0) * (if Z.eqb z z' then c else 0).
Proof.
  destruct (cell_dec (z, y, x) (z', y', x')) as [E|N].
  - injection E as -> -> ->. rewrite !Z.eqb_refl. reflexivity.
  - destruct (Z.eqb_spec x x') as [->|], (Z.eqb_spec y y') as [->|], (Z.eqb_spec z z') as [->|]; try ring. congruence.
Qed.
Lemma splat_votes align grid p c : regular3 (axes align grid p) -> inside grid c -> at_cell c (increments align true grid p) = tri_weight (axes align grid p) c.
Proof.
  destruct grid as ((gz, gy), gx), c as ((z, y), x). unfold axes, regular3. intros (R1 & R2 & R3) Hc. unfold increments. rewrite at_cell_filter by exact Hc. unfold inside in Hc.
  unfold tri_weight. rewrite <- (axis_tent _ z R1), <- (axis_tent _ y R2), <- (axis_tent _ x R3) by lia.
  unfold at_cell, eight_directions, direction. cbn [map fst snd]. rewrite !loc_location. rewrite !cell_if. unfold hits. cbn [rsum fold_right].
  set (a := if (_ + up false =? x)%Z then _ else _). set (a' := if (_ + up true =? x)%Z then _ else _).
  set (b := if (_ + up false =? y)%Z then _ else _). set (b' := if (_ + up true =? y)%Z then _ else _).
  set (d := if (_ + up false =? z)%Z then _ else _). set (d' := if (_ + up true =? z)%Z then _ else _). ring.
Qed.

(* ---- nearest ---- *)
Lemma lround_nearest r : is_nearest r (lround r).
Proof.
  unfold is_nearest, lround. destruct (Rltb_spec r 0) as [Hr|Hr].
  - destruct (floor_bounds (- r + / 2)) as (F1 & F2). rewrite opp_IZR. set (f := IZR (Int_part (- r + / 2))) in *. split; [apply Rabs_le; lra|]. intros E.
    assert (E' : r + f = 1 / 2) by (unfold Rabs in E; destruct (Rcase_abs (r - - f)); lra). assert (0 <= f) by (apply IZR_le, floor_ge; lra). rewrite !Rabs_left1 by lra. lra.
  - destruct (floor_bounds (r + / 2)) as (F1 & F2). set (f := IZR (Int_part (r + / 2))) in *. split; [apply Rabs_le; lra|]. intros E.
    assert (E' : f - r = 1 / 2) by (unfold Rabs in E; destruct (Rcase_abs (r - f)); lra). rewrite !Rabs_right by lra. lra.
Qed.
Lemma nearest_unique r x y : is_nearest r x -> is_nearest r y -> x = y.
Proof.
  intros (X1 & X2) (Y1 & Y2). destruct (Z.eq_dec x y) as [E|N]; [exact E|exfalso].
  assert (H : forall a b : Z, (a < b)%Z -> Rabs (r - IZR a) <= 1 / 2 -> Rabs (r - IZR b) <= 1 / 2 -> r - IZR a = 1 / 2 /\ IZR b - r = 1 / 2 /\ (b = a + 1)%Z).
  { intros a b Hab Ha Hb. assert (Hi : (a + 1 <= b)%Z) by lia. apply IZR_le in Hi. rewrite plus_IZR in Hi. unfold Rabs in Ha, Hb. destruct (Rcase_abs (r - IZR a)), (Rcase_abs (r - IZR b)); try lra.
    assert (IZR b = IZR (a + 1)) by (rewrite plus_IZR; lra). apply eq_IZR in H. split; [lra|]. split; [lra|exact H]. }
  assert (K : forall a b : Z, (a < b)%Z -> Rabs (r - IZR a) <= 1 / 2 -> Rabs (r - IZR b) <= 1 / 2 ->
     (Rabs (r - IZR a) = 1 / 2 -> Rabs r < Rabs (IZR a)) -> (Rabs (r - IZR b) = 1 / 2 -> Rabs r < Rabs (IZR b)) -> False).
  { intros a b Hab Ha Hb Ta Tb. destruct (H a b Hab Ha Hb) as (E1 & E2 & Eb). specialize (Ta ltac:(rewrite E1; apply Rabs_right; lra)). specialize (Tb ltac:(rewrite Rabs_left1; lra)).
    destruct (Z_le_gt_dec 0 a) as [Hp|Hp].
    - apply IZR_le in Hp. rewrite (Rabs_right r), (Rabs_right (IZR a)) in Ta by lra. lra.
    - assert (Hb0 : (b <= 0)%Z) by lia. apply IZR_le in Hb0. rewrite (Rabs_left1 r), (Rabs_left1 (IZR b)) in Tb by lra. lra. }
  destruct (Z.lt_total x y) as [L|[E|L]]; [|contradiction|]; eapply K; eauto.
Qed.
Lemma nearest_votes align grid p c : inside grid c -> vote false (axes align grid p) c (at_cell c (increments align false grid p)).
Proof.
  destruct grid as ((gz, gy), gx), c as ((z, y), x). intros Hc. unfold increments. rewrite at_cell_filter by exact Hc. unfold at_cell, axes, vote, nearest_cell. cbn [map fst snd rsum fold_right]. rewrite !loc_location.
  destruct (cell_dec _ _) as [E|N].
  - left. injection E as <- <- <-. split; [|lra]. repeat split; apply lround_nearest.
  - right. split; [|lra]. intros (H1 & H2 & H3). apply N. f_equal; [f_equal|]; apply (nearest_unique _ _ _ (lround_nearest _)); assumption.
Qed.
Lemma votes align splat grid p c : (splat = true -> regular3 (axes align grid p)) -> inside grid c -> vote splat (axes align grid p) c (at_cell c (increments align splat grid p)).
Proof. intros HR Hc. destruct splat; [apply splat_votes; auto|apply nearest_votes; exact Hc]. Qed.
Lemma incr_inside align splat grid p cw : In cw (increments align splat grid p) -> inside grid (fst cw).
Proof. unfold increments. destruct grid as ((gz, gy), gx). intros H. apply filter_In in H. apply in_grid_iff, H. Qed.
Lemma incr_outside align splat grid p c : ~ inside grid c -> at_cell c (increments align splat grid p) = 0.
Proof. intros H. unfold increments. destruct grid as ((gz, gy), gx). apply at_cell_outside. exact H. Qed.

(* ---- all additions ---- *)
Definition hit (b : nat) (k : option nat) (c : cell) (w : write) : R :=
  let '(b', k', c', a) := w in if Nat.eqb b' b then if kind_dec k' k then if cell_dec c' c then a else 0 else 0 else 0.
Definition tot b k c ws := rsum (map (hit b k c) ws).
Definition place (w : write) : cell := let '(_, _, c, _) := w in c.
Lemma add_all_ok dims ws : List.Forall (fun w => inside dims (place w)) ws -> forall v,
  exists v', add_all dims ws v = Ok v' /\ forall b k c, v' b k c = v b k c + tot b k c ws.
Proof.
  unfold add_all. induction 1 as [|(((b, k), c), a) ws Hw _ IH]; intros v.
  - exists v. split; [reflexivity|]. intros. unfold tot. cbn. lra.
  - cbn [rfold]. unfold add_to at 1. cbn [place] in Hw. apply in_grid_iff in Hw. rewrite Hw. cbn [rbind].
    match goal with |- context [rfold _ ws ?v1] => destruct (IH v1) as (v' & E & HV) end. exists v'. split; [exact E|]. intros b' k' c'. rewrite HV. unfold tot. cbn [map]. rewrite rsum_cons. cbn [hit].
    destruct (Nat.eqb b b'), (kind_dec k k'), (cell_dec c c'); cbn [andb]; lra.
Qed.
Lemma tot_app b k c x y : tot b k c (x ++ y) = tot b k c x + tot b k c y.
Proof. unfold tot. rewrite map_app, rsum_app. reflexivity. Qed.
Lemma tot_flat {A} b k c (f : A -> list write) l : tot b k c (flat_map f l) = rsum (map (fun x => tot b k c (f x)) l).
Proof. induction l as [|x l IH]; [reflexivity|]. cbn [flat_map map]. rewrite tot_app, rsum_cons, IH. reflexivity. Qed.
Lemma tot_perm b k c x y : Permutation x y -> tot b k c x = tot b k c y.
Proof. intros H. unfold tot. apply rsum_perm, Permutation_map, H. Qed.

Section Kernel.
Variables (N P C : nat) (dims : cell) (points_3d : nat -> nat -> vec3) (points_features : nat -> nat -> nat -> R).
Variables (grid_sizes : nat -> cell) (mask : nat -> nat -> R) (pw : R) (align splat : bool).
Notation pwr := (point_writes C points_3d points_features grid_sizes mask pw align splat).
Notation incr b i := (increments align splat (grid_sizes b) (points_3d b i)).
Definition factor (b i : nat) (k : option nat) : R := match k with None => 1 | Some k => if (k <? C)%nat then points_features b i k else 0 end.

Lemma tot_point b' i b k c : tot b k c (pwr b' i) =
  if Nat.eqb b' b then if Reqb (mask b i) 0 then 0 else at_cell c (incr b i) * (factor b i k * pw) else 0.
Proof.
  unfold point_writes. destruct (Nat.eqb_spec b' b) as [->|Nb].
  - destruct (Reqb (mask b i) 0); [reflexivity|]. rewrite tot_flat. unfold at_cell. induction (incr b i) as [|(c', w) l IH]; [cbn; lra|]. cbn [map fst snd]. rewrite !rsum_cons, IH. rewrite Rmult_plus_distr_r. f_equal.
    unfold tot. cbn [map]. rewrite rsum_cons. cbn [hit]. rewrite Nat.eqb_refl, map_map. cbn [hit]. rewrite Nat.eqb_refl.
    destruct k as [k|].
    + destruct (kind_dec None (Some k)) as [Y|_]; [discriminate|]. rewrite Rplus_0_l. unfold factor.
      assert (E : forall n, rsum (map (fun x => if kind_dec (Some x) (Some k) then if cell_dec c' c then points_features b i x * w * pw else 0 else 0) (seq 0 n)) =
                 if cell_dec c' c then w * ((if (k <? n)%nat then points_features b i k else 0) * pw) else 0).
      { intros n. induction n as [|n IHn]; [cbn; destruct (cell_dec c' c); lra|]. rewrite seq_S, map_app, rsum_app, IHn. cbn [map]. rewrite rsum_cons, rsum_nil. cbn [Nat.add].
        destruct (kind_dec (Some n) (Some k)) as [Y|Y].
        - injection Y as ->. rewrite (proj2 (Nat.ltb_ge k k)) by lia. rewrite (proj2 (Nat.ltb_lt k (S k))) by lia. destruct (cell_dec c' c); lra.
        - destruct (Nat.ltb_spec k n), (Nat.ltb_spec k (S n)); try lia; destruct (cell_dec c' c); try lra. exfalso. apply Y. f_equal. lia. }
      rewrite E. destruct (cell_dec c' c); lra.
    + destruct (kind_dec None None) as [_|Y]; [|congruence]. rewrite rsum_map_zero; [unfold factor; destruct (cell_dec c' c); lra|]. intros x _. destruct (kind_dec (Some x) None); [discriminate|reflexivity].
  - destruct (Reqb (mask b' i) 0); [reflexivity|]. rewrite tot_flat. apply rsum_map_zero. intros (c', w) _. unfold tot. apply rsum_map_zero. intros wr Hw.
    apply Nat.eqb_neq in Nb. destruct Hw as [<-|Hw]; [cbn; rewrite Nb; reflexivity|]. apply in_map_iff in Hw. destruct Hw as (x & <- & _). cbn. rewrite Nb. reflexivity.
Qed.
Lemma sum_only (n b : nat) (f : nat -> R) : (b < n)%nat -> rsum (map (fun b' => if Nat.eqb b' b then f b' else 0) (seq 0 n)) = f b.
Proof.
  intros Hb. fold (sumf n (fun b' => if Nat.eqb b' b then f b' else 0)). rewrite <- (sumf_single n b (f b) Hb). apply sumf_ext. intros i _. destruct (Nat.eqb_spec i b) as [->|]; reflexivity.
Qed.
Definition all_writes := flat_map (fun b => flat_map (pwr b) (seq 0 P)) (seq 0 N).
Lemma tot_all b k c : (b < N)%nat -> tot b k c all_writes = over_points P (mask b) (fun i => at_cell c (incr b i) * (factor b i k * pw)).
Proof.
  intros Hb. unfold all_writes. rewrite tot_flat. erewrite map_ext; [apply (sum_only N b (fun b' => over_points P (mask b) (fun i => at_cell c (incr b i) * (factor b i k * pw))) Hb)|].
  intros b'. cbn beta. rewrite tot_flat. destruct (Nat.eqb b' b) eqn:E.
  - unfold over_points, sumf. apply rsum_map_ext. intros i _. rewrite tot_point, E. reflexivity.
  - apply rsum_map_zero. intros i _. rewrite tot_point, E. reflexivity.
Qed.
Lemma tot_none b k c : (N <= b)%nat -> tot b k c all_writes = 0.
Proof.
  intros Hb. unfold all_writes. rewrite tot_flat. apply rsum_map_zero. intros b' Hb'. apply in_seq in Hb'. rewrite tot_flat. apply rsum_map_zero. intros i _. rewrite tot_point. destruct (Nat.eqb_spec b' b); [lia|reflexivity].
Qed.
Lemma writes_inside b i w : In w (pwr b i) -> inside (grid_sizes b) (place w).
Proof.
  unfold point_writes. destruct (Reqb _ _); [intros []|]. intros Hw. apply in_flat_map in Hw. destruct Hw as (cw & Hc & Hw). apply incr_inside in Hc. destruct Hw as [<-|Hw]; [exact Hc|]. apply in_map_iff in Hw. destruct Hw as (x & <- & _). exact Hc.
Qed.
Definition fits (grid : cell) : Prop := forall c, inside grid c -> inside dims c.
Hypothesis Hfit : forall b, (b < N)%nat -> fits (grid_sizes b).
Lemma all_inside ws : Permutation ws all_writes -> List.Forall (fun w => inside dims (place w)) ws.
Proof.
  intros HP. apply Forall_forall. intros w Hw. apply (Permutation_in _ HP) in Hw. apply in_flat_map in Hw. destruct Hw as (b & Hb & Hw). apply in_seq in Hb. apply in_flat_map in Hw. destruct Hw as (i & _ & Hw). apply (Hfit b); [lia|]. eapply writes_inside. exact Hw.
Qed.
Theorem add_perm ws v : Permutation ws all_writes -> exists v', add_all dims ws v = Ok v' /\
  (forall b k c, (b < N)%nat -> v' b k c = v b k c + over_points P (mask b) (fun i => at_cell c (incr b i) * (factor b i k * pw))) /\
  (forall b k c, (N <= b)%nat -> v' b k c = v b k c).
Proof.
  intros HP. destruct (add_all_ok dims ws (all_inside ws HP) v) as (v' & E & HV). exists v'. split; [exact E|]. split; intros b k c Hb; rewrite HV, (tot_perm _ _ _ _ _ HP).
  - rewrite tot_all by exact Hb. reflexivity.
  - rewrite tot_none by exact Hb. lra.
Qed.
End Kernel.
