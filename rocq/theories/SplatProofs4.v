(* Splatting: the Python path. *)
From Coq Require Import ZArith Reals Lra.
From Verif Require Import Base RBase Geom Threads TexturesProofs Splat SplatSpec SplatProofs SplatProofs2 SplatProofs3.
Local Open Scope R_scope.

Lemma flat_inj dims c c' : inside dims c -> inside dims c' -> flat_index dims c = flat_index dims c' -> c = c'.
Proof.
  destruct dims as ((D, H), W), c as ((z, y), x), c' as ((z', y'), x'). unfold inside, flat_index. intros Hc Hc' E.
  assert (E2 := f_equal (fun a => a mod W)%Z E). assert (E1 := f_equal (fun a => a / W)%Z E). cbv beta in E1, E2.
  rewrite !(Z.add_comm (_ * W)), !Z.mod_add, !(Z.mod_small _ W) in E2 by lia. rewrite !(Z.add_comm (_ * W)), !Z.div_add, !(Z.div_small _ W) in E1 by lia. cbn [Z.add] in E1.
  assert (E3 := f_equal (fun a => a mod H)%Z E1). assert (E4 := f_equal (fun a => a / H)%Z E1). cbv beta in E3, E4.
  rewrite !(Z.add_comm (_ * H)), !Z.mod_add, !(Z.mod_small _ H) in E3 by lia. rewrite !(Z.add_comm (_ * H)), !Z.div_add, !(Z.div_small _ H) in E4 by lia. cbn [Z.add] in E4. subst. reflexivity.
Qed.
Lemma flat_range dims c : inside dims c -> (0 <= flat_index dims c < cell_prod dims)%Z.
Proof. destruct dims as ((D, H), W), c as ((z, y), x). unfold inside, flat_index, cell_prod. intros Hc.
  assert (Ha : (0 <= z * H <= (D - 1) * H)%Z) by (split; [apply Z.mul_nonneg_nonneg; lia|apply Z.mul_le_mono_nonneg_r; lia]). assert (Hb : (0 <= z * H + y <= D * H - 1)%Z) by lia.
  assert (He : (0 <= (z * H + y) * W <= (D * H - 1) * W)%Z) by (split; [apply Z.mul_nonneg_nonneg; lia|apply Z.mul_le_mono_nonneg_r; lia]). lia. Qed.
Lemma flat_cell dims c : inside dims c -> (let '(_, h, w) := dims in let j := flat_index dims c in (j / (h * w), j / w mod h, j mod w)%Z) = c.
Proof.
  destruct dims as ((D, H), W), c as ((z, y), x). unfold inside, flat_index. intros Hc.
  assert (E1 : (((z * H + y) * W + x) / W = z * H + y)%Z) by (rewrite Z.add_comm, Z.div_add by lia; rewrite Z.div_small; lia).
  assert (E2 : (((z * H + y) * W + x) / (H * W) = z)%Z) by (rewrite (Z.mul_comm H W), <- Z.div_div, E1 by lia; rewrite Z.add_comm, Z.div_add by lia; rewrite Z.div_small; lia).
  rewrite E1, E2. rewrite (Z.add_comm (z * H)), Z.mod_add by lia. rewrite (Z.mod_small y) by lia. rewrite (Z.add_comm (_ * W)), Z.mod_add by lia. rewrite (Z.mod_small x) by lia. reflexivity.
Qed.
Lemma py_valid_iff grid c : py_valid grid c = true <-> inside grid c.
Proof. destruct grid as ((gz, gy), gx), c as ((z, y), x). unfold py_valid, inside. rewrite !andb_true_iff, !Z.leb_le, !Z.ltb_lt. lia. Qed.
Lemma py_loc_location g p : py_loc g p = location true g p.
Proof. unfold py_loc, location. lra. Qed.

(* one axis *)
Definition phits (l : R) (u : bool) (x : Z) : R := if Z.eqb (Int_part l + bit u) x then IZR (1 - bit u) + IZR (2 * bit u - 1) * (l - IZR (Int_part l)) else 0.
Lemma py_axis l x : phits l false x + phits l true x = tent (l - IZR x).
Proof.
  unfold phits, bit. rewrite Z.add_0_r. destruct (floor_bounds l) as (F1 & F2). set (f := Int_part l) in *. cbn -[IZR]. change (IZR (1 - 0)) with 1. change (IZR (2 * 0 - 1)) with (-1). change (IZR (1 - 1)) with 0. change (IZR (2 * 1 - 1)) with 1.
  destruct (Z.eqb_spec f x) as [E0|N]; destruct (Z.eqb_spec (f + 1) x) as [E|N']; try lia.
  + rewrite <- E0. rewrite tent_pos by lra. lra.
  + rewrite <- E, plus_IZR. rewrite tent_neg by lra. lra.
  + rewrite tent_zero; [lra|]. destruct (Z.lt_total f x) as [Y|[Y|Y]]; [|lia|].
    * left. assert (f + 2 <= x)%Z by lia. apply IZR_le in H. rewrite plus_IZR in H. lra.
    * right. assert (x + 1 <= f)%Z by lia. apply IZR_le in H. rewrite plus_IZR in H. lra.
Qed.
Lemma round_even_nearest r : is_nearest_even r (round_even r).
Proof.
  unfold is_nearest_even, round_even. destruct (floor_bounds (r + / 2)) as (F1 & F2). set (f := Int_part (r + / 2)) in *. destruct (Reqb_spec (r + / 2) (IZR f)) as [E|NE].
  - destruct (Z.even f) eqn:Ev.
    + split; [rewrite Rabs_left1; lra|]. intros _. exact Ev.
    + rewrite minus_IZR. split; [rewrite Rabs_right; lra|]. intros _. rewrite Z.even_sub, Ev. reflexivity.
  - split; [apply Rabs_le; lra|]. intros E. exfalso. unfold Rabs in E. destruct (Rcase_abs (r - IZR f)); [apply NE; lra|lra].
Qed.
Lemma nearest_even_unique r x y : is_nearest_even r x -> is_nearest_even r y -> x = y.
Proof.
  intros (X1 & X2) (Y1 & Y2). destruct (Z.eq_dec x y) as [E|N]; [exact E|exfalso].
  assert (H : forall a b : Z, (a < b)%Z -> Rabs (r - IZR a) <= 1 / 2 -> Rabs (r - IZR b) <= 1 / 2 -> Rabs (r - IZR a) = 1 / 2 /\ Rabs (r - IZR b) = 1 / 2 /\ (b = a + 1)%Z).
  { intros a b Hab Ha Hb. assert (Hi : (a + 1 <= b)%Z) by lia. apply IZR_le in Hi. rewrite plus_IZR in Hi. unfold Rabs in Ha, Hb |- *. destruct (Rcase_abs (r - IZR a)), (Rcase_abs (r - IZR b)); try lra.
    assert (E : IZR b = IZR (a + 1)) by (rewrite plus_IZR; lra). apply eq_IZR in E. split; [lra|]. split; [lra|exact E]. }
  assert (K : forall a b : Z, (a < b)%Z -> Rabs (r - IZR a) <= 1 / 2 -> Rabs (r - IZR b) <= 1 / 2 ->
     (Rabs (r - IZR a) = 1 / 2 -> Z.even a = true) -> (Rabs (r - IZR b) = 1 / 2 -> Z.even b = true) -> False).
  { intros a b Hab Ha Hb Ta Tb. destruct (H a b Hab Ha Hb) as (E1 & E2 & ->). specialize (Ta E1). specialize (Tb E2). rewrite Z.even_add, Ta in Tb. discriminate. }
  destruct (Z.lt_total x y) as [L|[E|L]]; [|contradiction|]; eapply K; eauto.
Qed.

(* ---- flat memory ---- *)
Definition fwrite := (nat * option nat * Z * R)%type.
Definition fhit (b : nat) (k : option nat) (j : Z) (w : fwrite) : R :=
  let '(b', k', j', a) := w in if Nat.eqb b' b then if kind_dec k' k then if Z.eqb j' j then a else 0 else 0 else 0.
Definition ftot b k j (ws : list fwrite) := rsum (map (fhit b k j) ws).
Lemma py_add_all dims (ws : list fwrite) : List.Forall (fun w => 0 <= snd (fst w) < n_voxels dims)%Z ws -> forall v,
  exists v', rfold (py_add dims) ws v = Ok v' /\ forall b k j, v' b k j = v b k j + ftot b k j ws.
Proof.
  induction 1 as [|(((b, k), j), a) ws Hw _ IH]; intros v.
  - exists v. split; [reflexivity|]. intros. unfold ftot. cbn. lra.
  - cbn [rfold]. unfold py_add at 1. cbn [fst snd] in Hw. replace ((0 <=? j) && (j <? n_voxels dims))%Z with true by (symmetry; apply andb_true_iff; rewrite Z.leb_le, Z.ltb_lt; exact Hw). cbn [rbind].
    match goal with |- context [rfold _ ws ?v1] => destruct (IH v1) as (v' & E & HV) end. exists v'. split; [exact E|]. intros b' k' j'. rewrite HV. unfold ftot. cbn [map]. rewrite rsum_cons. cbn [fhit].
    destruct (Nat.eqb b b'), (kind_dec k k'), (Z.eqb j j'); cbn [andb]; lra.
Qed.
Lemma ftot_app b k j x y : ftot b k j (x ++ y) = ftot b k j x + ftot b k j y.
Proof. unfold ftot. rewrite map_app, rsum_app. reflexivity. Qed.
Lemma ftot_flat {A} b k j (f : A -> list fwrite) l : ftot b k j (flat_map f l) = rsum (map (fun x => ftot b k j (f x)) l).
Proof. induction l as [|x l IH]; [reflexivity|]. cbn [flat_map map]. rewrite ftot_app, rsum_cons, IH. reflexivity. Qed.

Section Python.
Variables (N P C : nat) (dims : cell) (pts : nat -> nat -> vec3) (pf : nat -> nat -> nat -> R) (grid : nat -> cell).
Variables (mask : option (nat -> nat -> R)) (rnd : nat -> nat -> Z).
Hypothesis HN : (0 < N)%nat.
Hypothesis Hgrid : forall b, (b < N)%nat -> grid b = dims.
Hypothesis Hpos : let '(D, H, W) := dims in (0 < D /\ 0 < H /\ 0 < W)%Z.
Hypothesis Hrnd : forall b i, (b < N)%nat -> (i < P)%nat -> (0 <= rnd b i < n_voxels dims)%Z.
Let m := match mask with None => fun _ _ => 1 | Some m => m end.
Hypothesis Hbin : forall b i, (b < N)%nat -> (i < P)%nat -> m b i = 0 \/ m b i = 1.

Lemma scatter_tot vote b k j : (b < N)%nat -> ftot b k j (py_scatter N P C pf vote) =
  sumf P (fun i => (if Z.eqb (fst (vote b i)) j then snd (vote b i) else 0) * factor C pf b i k).
Proof.
  intros Hb. unfold py_scatter. rewrite ftot_app, !ftot_flat.
  rewrite (rsum_map_ext (fun x => ftot b k j (map _ (seq 0 P))) (fun x => if Nat.eqb x b then (if kind_dec None k then sumf P (fun i => if Z.eqb (fst (vote b i)) j then snd (vote b i) else 0) else 0) else 0)).
  2:{ intros x _. unfold ftot. rewrite map_map. cbn [fhit]. destruct (Nat.eqb_spec x b) as [->|]; [|apply rsum_map_zero; reflexivity]. destruct (kind_dec None k); [reflexivity|apply rsum_map_zero; reflexivity]. }
  rewrite (sum_only N b (fun _ => if kind_dec None k then _ else 0) Hb).
  rewrite (rsum_map_ext (fun x => ftot b k j (flat_map _ (seq 0 C))) (fun x => if Nat.eqb x b then rsum (map (fun k' => if kind_dec (Some k') k then sumf P (fun i => (if Z.eqb (fst (vote b i)) j then snd (vote b i) else 0) * pf b i k') else 0) (seq 0 C)) else 0)).
  2:{ intros x _. rewrite ftot_flat. destruct (Nat.eqb_spec x b) as [->|Nx].
      - apply rsum_map_ext. intros k' _. unfold ftot. rewrite map_map. cbn [fhit]. rewrite Nat.eqb_refl. destruct (kind_dec (Some k') k); [|apply rsum_map_zero; reflexivity]. apply rsum_map_ext. intros i _. destruct (Z.eqb _ j); lra.
      - apply rsum_map_zero. intros k' _. unfold ftot. rewrite map_map. apply rsum_map_zero. intros i _. cbn [fhit]. apply Nat.eqb_neq in Nx. rewrite Nx. reflexivity. }
  rewrite (sum_only N b (fun _ => rsum (map _ (seq 0 C))) Hb). destruct k as [k|].
  - destruct (kind_dec None (Some k)) as [Y|_]; [discriminate|]. rewrite Rplus_0_l. cbn [factor].
    destruct (Nat.ltb_spec k C) as [L|L].
    + rewrite <- (sumf_single C k (sumf P (fun i => (if Z.eqb (fst (vote b i)) j then snd (vote b i) else 0) * pf b i k)) L). unfold sumf at 2. apply rsum_map_ext. intros k' _. destruct (kind_dec (Some k') (Some k)) as [Y|Y], (Nat.eqb_spec k' k) as [E|E]; try reflexivity; [subst; reflexivity|congruence|congruence].
    + rewrite rsum_map_zero; [symmetry; apply sumf_zero; intros; lra|]. intros k' Hk. apply in_seq in Hk. destruct (kind_dec (Some k') (Some k)) as [Y|]; [|reflexivity]. injection Y as ->. lia.
  - destruct (kind_dec None None) as [_|Y]; [|congruence]. rewrite (rsum_map_zero _ (seq 0 C)); [|intros k' _; destruct (kind_dec (Some k') None); [discriminate|reflexivity]]. cbn [factor]. rewrite Rplus_0_r. apply sumf_ext. intros i _. lra.
Qed.

(* the cell of a vote *)
Definition vote_cell (b i : nat) (d : bool * bool * bool) : cell * R :=
  let '(gz, gy, gx) := grid b in let p := pts b i in let '(dx, dy, dz) := d in
  let lx := py_loc gx (x3 p) in let ly := py_loc gy (y3 p) in let lz := py_loc gz (z3 p) in
  let wgt u l := IZR (1 - bit u) + IZR (2 * bit u - 1) * (l - IZR (Int_part l)) in
  ((Int_part lz + bit dz, Int_part ly + bit dy, Int_part lx + bit dx)%Z, wgt dx lx * wgt dy ly * wgt dz lz).
Lemma py_vote_cell b i d : py_vote pts grid mask rnd b i d =
  let cw := vote_cell b i d in let valid := py_valid (grid b) (fst cw) in
  ((flat_index (grid b) (fst cw) * bit valid + rnd b i * (1 - bit valid))%Z, snd cw * IZR (bit valid) * m b i).
Proof. unfold py_vote, vote_cell, m. destruct (grid b) as ((gz, gy), gx), d as ((dx, dy), dz). cbn [fst snd]. destruct mask; [reflexivity|]. f_equal. lra. Qed.
Lemma vote_in b i (c : cell) (w : R) j0 : (b < N)%nat -> (i < P)%nat -> inside dims j0 ->
  let valid := py_valid (grid b) c in let idx := (flat_index (grid b) c * bit valid + rnd b i * (1 - bit valid))%Z in
  (0 <= idx < n_voxels dims)%Z /\ (if Z.eqb idx (flat_index dims j0) then w * IZR (bit valid) else 0) = if cell_dec c j0 then w else 0.
Proof.
  intros Hb Hi Hj. cbv zeta. rewrite Hgrid by exact Hb. destruct (py_valid dims c) eqn:E; cbn [bit].
  - apply py_valid_iff in E. replace (flat_index dims c * 1 + rnd b i * (1 - 1))%Z with (flat_index dims c) by lia. split; [apply flat_range; exact E|].
    destruct (cell_dec c j0) as [->|Nc]; [rewrite Z.eqb_refl; lra|]. destruct (Z.eqb_spec (flat_index dims c) (flat_index dims j0)) as [Y|Y]; [exfalso; apply Nc; eapply flat_inj; eassumption|reflexivity].
  - replace (flat_index dims c * 0 + rnd b i * (1 - 0))%Z with (rnd b i) by lia. split; [apply Hrnd; assumption|]. destruct (cell_dec c j0) as [->|_]; [apply py_valid_iff in Hj; congruence|]. destruct (Z.eqb _ _); lra.
Qed.
Lemma py_splat_weight b i c : (b < N)%nat -> (i < P)%nat -> inside dims c ->
  rsum (map (fun d => if Z.eqb (fst (py_vote pts grid mask rnd b i d)) (flat_index dims c) then snd (py_vote pts grid mask rnd b i d) else 0) eight_directions) =
  m b i * tri_weight (axes true dims (pts b i)) c.
Proof.
  intros Hb Hi Hc. rewrite (rsum_map_ext _ (fun d => m b i * (if cell_dec (fst (vote_cell b i d)) c then snd (vote_cell b i d) else 0))).
  - rewrite rsum_map_scal. f_equal. unfold vote_cell. rewrite Hgrid by exact Hb. unfold axes. destruct dims as ((D, H), W), c as ((z, y), x). unfold tri_weight. rewrite <- (py_axis _ z), <- (py_axis _ y), <- (py_axis _ x). unfold eight_directions. cbn [map fst snd]. rewrite !py_loc_location, !cell_if. unfold phits. cbn [rsum fold_right].
    set (a := if (_ + bit false =? x)%Z then _ else _). set (a' := if (_ + bit true =? x)%Z then _ else _).
    set (e := if (_ + bit false =? y)%Z then _ else _). set (e' := if (_ + bit true =? y)%Z then _ else _).
    set (d := if (_ + bit false =? z)%Z then _ else _). set (d' := if (_ + bit true =? z)%Z then _ else _). ring.
  - intros d _. rewrite py_vote_cell. cbn [fst snd]. destruct (vote_in b i (fst (vote_cell b i d)) (snd (vote_cell b i d)) c Hb Hi Hc) as (_ & E). rewrite <- E. destruct (Z.eqb _ _); lra.
Qed.
Lemma bin_trunc b i : (b < N)%nat -> (i < P)%nat -> IZR (trunc (m b i)) = m b i /\ (trunc (m b i) = 0 \/ trunc (m b i) = 1)%Z.
Proof.
  intros Hb Hi. destruct (Hbin b i Hb Hi) as [E|E]; rewrite E.
  - rewrite trunc_pos by lra. change 0 with (IZR 0) at 1 3. rewrite floor_IZR. split; [reflexivity|]. left. reflexivity.
  - rewrite trunc_pos by lra. change 1 with (IZR 1) at 1 3. rewrite floor_IZR. split; [reflexivity|]. right. reflexivity.
Qed.
Definition round_cell (b i : nat) : cell := let '(gz, gy, gx) := grid b in (round_even (py_loc gz (z3 (pts b i))), round_even (py_loc gy (y3 (pts b i))), round_even (py_loc gx (x3 (pts b i)))).
Lemma py_round_cell b i : (b < N)%nat -> (i < P)%nat -> let valid := (bit (py_valid (grid b) (round_cell b i)) * trunc (m b i))%Z in
  py_round_vote pts grid mask rnd b i = ((flat_index (grid b) (round_cell b i) * valid + rnd b i * (1 - valid))%Z, IZR valid).
Proof.
  intros Hb Hi. unfold py_round_vote, round_cell, m. destruct (grid b) as ((gz, gy), gx) eqn:Eg. destruct mask; [reflexivity|]. rewrite trunc_pos by lra. change 1 with (IZR 1). rewrite floor_IZR. rewrite Z.mul_1_r. reflexivity.
Qed.
Lemma py_round_weight b i c : (b < N)%nat -> (i < P)%nat -> inside dims c ->
  (0 <= fst (py_round_vote pts grid mask rnd b i) < n_voxels dims)%Z /\
  (if Z.eqb (fst (py_round_vote pts grid mask rnd b i)) (flat_index dims c) then snd (py_round_vote pts grid mask rnd b i) else 0) = m b i * (if cell_dec (round_cell b i) c then 1 else 0).
Proof.
  intros Hb Hi Hc. rewrite py_round_cell by assumption. cbn [fst snd]. destruct (bin_trunc b i Hb Hi) as (T1 & T2). destruct T2 as [T2|T2]; rewrite T2 in T1 |- *; rewrite <- T1.
  - rewrite !Z.mul_0_r. replace (0 + rnd b i * (1 - 0))%Z with (rnd b i) by lia. split; [apply Hrnd; assumption|]. destruct (Z.eqb _ _); lra.
  - rewrite Z.mul_1_r. destruct (vote_in b i (round_cell b i) 1 c Hb Hi Hc) as (E1 & E2). split; [exact E1|]. rewrite <- E2. destruct (Z.eqb _ _); lra.
Qed.

Definition weight (splat : bool) (b i : nat) (c : cell) : R := if splat then tri_weight (axes true dims (pts b i)) c else if cell_dec (round_cell b i) c then 1 else 0.
Lemma weight_vote splat b i c : (b < N)%nat -> vote_even splat (axes true dims (pts b i)) c (weight splat b i c).
Proof.
  intros Hb. unfold vote_even, weight. destruct splat; [reflexivity|]. unfold round_cell, axes. rewrite Hgrid by exact Hb. destruct dims as ((D, H), W), c as ((z, y), x). change py_loc with (location true). unfold nearest_even_cell. destruct (cell_dec _ _) as [E|NE].
  - left. injection E as <- <- <-. split; [|reflexivity]. repeat split; apply round_even_nearest.
  - right. split; [|reflexivity]. intros (H1 & H2 & H3). apply NE. f_equal; [f_equal|]; apply (nearest_even_unique _ _ _ (round_even_nearest _)); assumption.
Qed.
Lemma check_ok : py_check N dims grid = Ok tt.
Proof.
  unfold py_check. assert (A : forall b, In b (seq 0 N) -> grid b = dims) by (intros b Hb; apply in_seq in Hb; apply Hgrid; lia). destruct (seq 0 N) as [|b l] eqn:E; [destruct N; [lia|discriminate]|]. cbn [map].
  rewrite (A b) by (left; reflexivity). assert (M : fold_left cell_max (map grid l) dims = dims).
  { assert (A' : forall b, In b l -> grid b = dims) by (intros; apply A; right; assumption). clear - A'. induction l as [|x l IH]; [reflexivity|]. cbn. rewrite (A' x) by (left; reflexivity). assert (X : cell_max dims dims = dims) by (destruct dims as ((a, b), c); cbn; rewrite !Z.max_id; reflexivity). rewrite X. apply IH. intros; apply A'; right; assumption. }
  rewrite M. unfold n_voxels. rewrite Z.ltb_irrefl. reflexivity.
Qed.
Theorem py_sums_ok splat v : exists v', py_sums N P C dims pts pf grid mask rnd splat v = Ok v' /\
  forall b k c, (b < N)%nat -> inside dims c -> v' b k (flat_index dims c) = v b k (flat_index dims c) + over_points P (m b) (fun i => weight splat b i c * factor C pf b i k).
Proof.
  assert (E0 : inside dims (0, 0, 0)%Z) by (destruct dims as ((D, H), W); unfold inside; lia).
  unfold py_sums. rewrite check_ok. cbn [rbind]. assert (NV : (0 < n_voxels dims)%Z) by (pose proof (flat_range _ _ E0); unfold n_voxels; lia). destruct (Z.leb_spec (n_voxels dims) 0); [lia|].
  assert (SC : forall vote, (forall b i, (b < N)%nat -> (i < P)%nat -> (0 <= fst (vote b i) < n_voxels dims)%Z) -> List.Forall (fun w : fwrite => 0 <= snd (fst w) < n_voxels dims)%Z (py_scatter N P C pf vote)).
  { intros vote HV. apply Forall_forall. intros w Hw. unfold py_scatter in Hw. apply in_app_iff in Hw. destruct Hw as [Hw|Hw]; apply in_flat_map in Hw; destruct Hw as (b & Hb & Hw); apply in_seq in Hb.
    - apply in_map_iff in Hw. destruct Hw as (i & <- & Hi). apply in_seq in Hi. cbn [fst snd]. apply HV; lia.
    - apply in_flat_map in Hw. destruct Hw as (k & _ & Hw). apply in_map_iff in Hw. destruct Hw as (i & <- & Hi). apply in_seq in Hi. cbn [fst snd]. apply HV; lia. }
  set (ws := if splat then flat_map (fun d => py_scatter N P C pf (fun b i => py_vote pts grid mask rnd b i d)) py_directions else py_scatter N P C pf (py_round_vote pts grid mask rnd)).
  assert (HF : List.Forall (fun w : fwrite => 0 <= snd (fst w) < n_voxels dims)%Z ws).
  { unfold ws. destruct splat.
    - apply Forall_forall. intros w Hw. apply in_flat_map in Hw. destruct Hw as (d & _ & Hw). revert w Hw. apply Forall_forall, SC. intros b i Hb Hi. rewrite py_vote_cell. cbn [fst]. apply (vote_in b i (fst (vote_cell b i d)) 0 _ Hb Hi E0).
    - apply SC. intros b i Hb Hi. apply (py_round_weight b i _ Hb Hi E0). }
  destruct (py_add_all dims ws HF v) as (v' & E & HV). exists v'. split; [exact E|]. intros b k c Hb Hc. rewrite HV. f_equal. unfold over_points.
  rewrite (sumf_ext P _ (fun i => m b i * weight splat b i c * factor C pf b i k)).
  2:{ intros i Hi. destruct (Hbin b i Hb Hi) as [Y|Y]; rewrite Y; destruct (Reqb_spec 0 0), (Reqb_spec 1 0); try lra. }
  unfold ws. destruct splat.
  - rewrite ftot_flat. rewrite (rsum_map_ext _ (fun d => sumf P (fun i => (if Z.eqb (fst (py_vote pts grid mask rnd b i d)) (flat_index dims c) then snd (py_vote pts grid mask rnd b i d) else 0) * factor C pf b i k))) by (intros d _; apply scatter_tot; exact Hb).
    assert (SW : forall (A : Type) (l : list A) (h : A -> nat -> R), rsum (map (fun c => sumf P (h c)) l) = sumf P (fun i => rsum (map (fun c => h c i) l))).
    { intros A l h. unfold sumf. induction l as [|x l IH]; [cbn; symmetry; apply rsum_map_zero; reflexivity|]. cbn [map]. rewrite rsum_cons, IH, <- rsum_map_plus. apply rsum_map_ext. intros i _. rewrite rsum_cons. reflexivity. }
    etransitivity; [exact (SW _ _ (fun d i => (if Z.eqb (fst (py_vote pts grid mask rnd b i d)) (flat_index dims c) then snd (py_vote pts grid mask rnd b i d) else 0) * factor C pf b i k))|]. apply sumf_ext. intros i Hi. unfold weight. rewrite <- py_splat_weight by assumption. rewrite Rmult_comm, <- rsum_map_scal. apply rsum_map_ext. intros d _. apply Rmult_comm.
  - rewrite scatter_tot by exact Hb. apply sumf_ext. intros i Hi. destruct (py_round_weight b i c Hb Hi Hc) as (_ & EW). rewrite EW. reflexivity.
Qed.
End Python.
