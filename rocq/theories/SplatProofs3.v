(* Splatting: the backward pass. *)
From Coq Require Import ZArith Reals Lra.
From Verif Require Import Base RBase Geom Threads TexturesProofs Splat SplatSpec SplatProofs SplatProofs2.
From Verif Require MeshesProofs10.
Local Open Scope R_scope.

Lemma deriv_local f g x l d : 0 < d -> (forall t, Rabs (t - x) < d -> f t = g t) -> derivable_pt_lim g x l -> derivable_pt_lim f x l.
Proof.
  intros Hd E H eps He. destruct (H eps He) as (del & Hdel). assert (Hm : 0 < Rmin del d) by (apply Rmin_pos; [apply cond_pos|exact Hd]). exists (mkposreal _ Hm). cbn. intros h Hh Hb.
  assert (B1 : Rabs h < del) by (eapply Rlt_le_trans; [exact Hb|apply Rmin_l]). assert (B2 : Rabs h < d) by (eapply Rlt_le_trans; [exact Hb|apply Rmin_r]).
  rewrite (E (x + h)) by (replace (x + h - x) with h by ring; exact B2). rewrite (E x) by (rewrite Rminus_diag_eq, Rabs_R0 by reflexivity; exact Hd). apply Hdel; assumption.
Qed.
Lemma trunc_local l : not_integer l -> exists e, 0 < e /\ forall l', Rabs (l' - l) < e -> trunc l' = trunc l.
Proof.
  intros Hn. assert (Hp : exists k, IZR k < l < IZR k + 1) by (exists (Int_part l); destruct (floor_bounds l) as (F1 & F2); split; [|exact F2]; destruct F1 as [F1|F1]; [exact F1|]; exfalso; apply (Hn (Int_part l)); auto).
  destruct Hp as (k & H1 & H2). assert (He : 0 < Rmin (l - IZR k) (IZR k + 1 - l)) by (apply Rmin_pos; lra). exists (Rmin (l - IZR k) (IZR k + 1 - l)). split; [exact He|].
  assert (T : forall r, IZR k < r < IZR k + 1 -> trunc r = if (k <? 0)%Z then (k + 1)%Z else k).
  { intros r Hr. destruct (Z.ltb_spec k 0) as [L|L].
    - assert (IZR k + 1 <= 0) by (assert (k + 1 <= 0)%Z by lia; apply IZR_le in H; rewrite plus_IZR in H; exact H). rewrite trunc_neg by lra. rewrite (floor_unique (- r) (- k - 1)); [lia|]. rewrite minus_IZR, opp_IZR. lra.
    - apply IZR_le in L. rewrite trunc_pos by lra. apply floor_unique. lra. }
  intros l' Hl. assert (A : - (Rmin (l - IZR k) (IZR k + 1 - l)) < l' - l < Rmin (l - IZR k) (IZR k + 1 - l)) by (apply Rabs_def2 in Hl; lra).
  pose proof (Rmin_l (l - IZR k) (IZR k + 1 - l)). pose proof (Rmin_r (l - IZR k) (IZR k + 1 - l)). rewrite !T by lra. reflexivity.
Qed.

(* sums over cells *)
Lemma cells_once {A} (dec : forall x y : A, {x = y} + {x <> y}) l c (f : A -> R) : NoDup l -> In c l -> rsum (map (fun x => if dec c x then f x else 0) l) = f c.
Proof.
  induction l as [|x l IH]; intros ND Hc; [destruct Hc|]. inversion ND as [|x' l' Hx HN]; subst. cbn [map]. rewrite rsum_cons. destruct (dec c x) as [->|Nx].
  - rewrite rsum_map_zero; [lra|]. intros y Hy. destruct (dec x y) as [->|]; [contradiction|reflexivity].
  - destruct Hc as [->|Hc]; [contradiction|]. rewrite IH by assumption. lra.
Qed.
Lemma all_cells_nodup grid : NoDup (all_cells grid).
Proof.
  destruct grid as ((gz, gy), gx). unfold all_cells. assert (R1 : forall n, NoDup (map Z.of_nat (seq 0 n))) by (intros n; apply FinFun.Injective_map_NoDup; [intros a b; lia|apply seq_NoDup]).
  assert (PR : forall (A B : Type) (a : list A) (b : list B), NoDup a -> NoDup b -> NoDup (list_prod a b)).
  { intros A B a b Ha Hb. induction Ha as [|x a Hx Ha IH]; [constructor|]. cbn. apply MeshesProofs10.nodup_app; [apply FinFun.Injective_map_NoDup; [intros u v E; congruence|exact Hb]|exact IH|].
    intros (u, v) H1 H2. apply in_map_iff in H1. destruct H1 as (v' & E & _). injection E as <- <-. apply in_prod_iff in H2. destruct H2. contradiction. }
  apply PR; [apply PR|]; apply R1.
Qed.
(* pairing a volume with the votes of a point *)
Lemma pair_votes grid (g : cell -> R) ws : List.Forall (fun cw => inside grid (fst cw)) ws ->
  rsum (map (fun c => g c * at_cell c ws) (all_cells grid)) = rsum (map (fun cw => snd cw * g (fst cw)) ws).
Proof.
  unfold at_cell. induction 1 as [|(c', w) ws Hc _ IH].
  - cbn [map rsum fold_right]. apply rsum_map_zero. intros. lra.
  - cbn [map fst snd] in *. rewrite rsum_cons, <- IH. rewrite <- (cells_once cell_dec (all_cells grid) c' (fun x => w * g x)) by (try apply all_cells_nodup; apply all_cells_in; exact Hc). rewrite <- rsum_map_plus. apply rsum_map_ext. intros x _. rewrite rsum_cons. destruct (cell_dec c' x); lra.
Qed.

Section Backward.
Variables (N P C : nat) (dims : cell) (pf : nat -> nat -> nat -> R).
Variables (grid_sizes : nat -> cell) (mask : nat -> nat -> R) (pw : R) (align splat : bool).
Variables (gd : nat -> cell -> R) (gf : nat -> nat -> cell -> R).
Hypothesis Hfit : forall b, (b < N)%nat -> fits dims (grid_sizes b).

(* the part of the pairing that comes from point i *)
Definition source (f : nat -> R) (b : nat) (c : cell) : R := gd b c + sumf C (fun k => f k * gf b k c).
Definition votes_of (b : nat) (p : vec3) (f : nat -> R) : R := rsum (map (fun cw => snd cw * (pw * source f b (fst cw))) (increments align splat (grid_sizes b) p)).
Lemma pairing_value pts pf' v v' b : (b < N)%nat -> forward_cpu N P C dims pts pf' grid_sizes mask pw align splat v = Ok v' ->
  pairing dims C (gd b) (gf b) (v' b) = pairing dims C (gd b) (gf b) (v b) + over_points P (mask b) (fun i => votes_of b (pts b i) (pf' b i)).
Proof.
  intros Hb E. destruct (add_perm N P C dims pts pf' grid_sizes mask pw align splat Hfit _ v (Permutation_refl _)) as (v2 & E2 & HV & _). unfold forward_cpu in E. change (flat_map _ (seq 0 N)) with (all_writes N P C pts pf' grid_sizes mask pw align splat) in E. rewrite E in E2. injection E2 as <-.
  unfold pairing. rewrite (rsum_map_ext _ (fun c => (gd b c * v b None c + sumf C (fun k => gf b k c * v b (Some k) c)) +
     sumf P (fun i => if Reqb (mask b i) 0 then 0 else (pw * source (pf' b i) b c) * at_cell c (increments align splat (grid_sizes b) (pts b i))))).
  - rewrite rsum_map_plus. f_equal. unfold over_points.
    assert (SW : forall (A : Type) (l : list A) (h : A -> nat -> R), rsum (map (fun c => sumf P (h c)) l) = sumf P (fun i => rsum (map (fun c => h c i) l))).
    { intros A l h. unfold sumf. induction l as [|x l IH]; [cbn; symmetry; apply rsum_map_zero; reflexivity|]. cbn [map]. rewrite rsum_cons, IH, <- rsum_map_plus. apply rsum_map_ext. intros i _. rewrite rsum_cons. reflexivity. }
    etransitivity; [exact (SW _ (all_cells dims) (fun c i => if Reqb (mask b i) 0 then 0 else (pw * source (pf' b i) b c) * at_cell c (increments align splat (grid_sizes b) (pts b i))))|]. apply sumf_ext. intros i Hi. destruct (Reqb (mask b i) 0); [apply rsum_map_zero; reflexivity|].
    rewrite pair_votes; [reflexivity|]. apply Forall_forall. intros cw Hc. apply incr_inside in Hc. apply (Hfit b Hb). exact Hc.
  - intros c _. rewrite HV by exact Hb. rewrite (sumf_ext C _ (fun k => gf b k c * v b (Some k) c + gf b k c * over_points P (mask b) (fun i => at_cell c (increments align splat (grid_sizes b) (pts b i)) * (pf' b i k * pw)))).
    2:{ intros k Hk. rewrite HV by exact Hb. unfold factor. rewrite (proj2 (Nat.ltb_lt k C) Hk). ring. }
    rewrite sumf_plus. unfold factor. unfold over_points.
    assert (E3 : sumf C (fun k => gf b k c * sumf P (fun i => if Reqb (mask b i) 0 then 0 else at_cell c (increments align splat (grid_sizes b) (pts b i)) * (pf' b i k * pw))) =
       sumf P (fun i => sumf C (fun k => if Reqb (mask b i) 0 then 0 else at_cell c (increments align splat (grid_sizes b) (pts b i)) * pw * (pf' b i k * gf b k c)))).
    { rewrite sumf_comm. apply sumf_ext. intros k _. rewrite <- sumf_scal. apply sumf_ext. intros i _. destruct (Reqb (mask b i) 0); ring. }
    rewrite E3. replace (sumf P (fun i => if Reqb (mask b i) 0 then 0 else pw * source (pf' b i) b c * at_cell c (increments align splat (grid_sizes b) (pts b i)))) with
      (gd b c * sumf P (fun i => if Reqb (mask b i) 0 then 0 else at_cell c (increments align splat (grid_sizes b) (pts b i)) * (1 * pw)) +
       sumf P (fun i => sumf C (fun k => if Reqb (mask b i) 0 then 0 else at_cell c (increments align splat (grid_sizes b) (pts b i)) * pw * (pf' b i k * gf b k c)))); [ring|].
    rewrite <- sumf_scal, <- sumf_plus. apply sumf_ext. intros i _. unfold source. destruct (Reqb (mask b i) 0).
    + rewrite sumf_zero by reflexivity. ring.
    + rewrite sumf_scal. ring.
Qed.

(* gradient with respect to a feature *)
Lemma fold_sum {A} (f : A -> R) l : forall acc, fold_left (fun acc x => acc + f x) l acc = acc + rsum (map f l).
Proof. induction l as [|x l IH]; intros acc; cbn [fold_left map]; [rewrite rsum_nil; lra|]. rewrite IH, rsum_cons. lra. Qed.
Lemma deriv_points f i0 (g : nat -> R -> R) x d : (i0 < P)%nat -> (forall i t, i <> i0 -> g i t = g i x) -> derivable_pt_lim (g i0) x d ->
  derivable_pt_lim (fun t => over_points P f (fun i => g i t)) x (if Reqb (f i0) 0 then 0 else d).
Proof.
  intros Hi Hc Hd. unfold over_points. apply (deriv_val _ _ (sumf P (fun i => if Nat.eqb i i0 then (if Reqb (f i0) 0 then 0 else d) else 0))); [apply sumf_single; exact Hi|].
  apply (deriv_sumf P (fun i t => if Reqb (f i) 0 then 0 else g i t)). intros i _. destruct (Nat.eqb_spec i i0) as [->|Ni].
  - destruct (Reqb (f i0) 0); [apply deriv_const|exact Hd].
  - destruct (Reqb (f i) 0); [apply deriv_const|]. apply (deriv_ext _ (fun _ => g i x)); [intros t; apply Hc; exact Ni|apply deriv_const].
Qed.

Theorem feature_gradient pts b i k v V : (b < N)%nat -> (i < P)%nat -> (k < C)%nat ->
  (forall t, forward_cpu N P C dims pts (replaced pf b i (fun k' => if Nat.eqb k' k then t else pf b i k')) grid_sizes mask pw align splat v = Ok (V t)) ->
  derivable_pt_lim (fun t => pairing dims C (gd b) (gf b) (V t b)) (pf b i k) (grad_point_feature pts grid_sizes mask pw align splat gf b i k).
Proof.
  intros Hb Hi Hk HV. set (pf' := fun t => replaced pf b i (fun k' => if Nat.eqb k' k then t else pf b i k')).
  apply (deriv_ext _ (fun t => pairing dims C (gd b) (gf b) (v b) + over_points P (mask b) (fun j => votes_of b (pts b j) (pf' t b j)))); [intros t; apply pairing_value; [exact Hb|exact (HV t)]|].
  unfold grad_point_feature.
  apply (deriv_val _ _ (0 + (if Reqb (mask b i) 0 then 0 else rsum (map (fun cw => gf b k (fst cw) * snd cw * pw) (increments align splat (grid_sizes b) (pts b i)))))); [destruct (Reqb (mask b i) 0); [lra|]; rewrite Rplus_0_l; symmetry; etransitivity; [apply (fold_sum (fun cw : cell * R => gf b k (fst cw) * snd cw * pw))|apply Rplus_0_l]|].
  apply deriv_plus; [apply deriv_const|]. apply (deriv_points (mask b) i (fun j t => votes_of b (pts b j) (pf' t b j))); [exact Hi| |].
  - intros j t Nj. unfold pf', replaced. rewrite Nat.eqb_refl. apply Nat.eqb_neq in Nj. rewrite Nj. reflexivity.
  - unfold votes_of. apply (deriv_ext _ (fun t => rsum (map (fun cw => (fun (cw : cell * R) t => snd cw * (pw * source (pf' t b i) b (fst cw))) cw t) (increments align splat (grid_sizes b) (pts b i))))); [reflexivity|].
    apply deriv_rsum. intros (c, w) _. cbn [fst snd]. unfold source, pf', replaced. rewrite !Nat.eqb_refl. cbn [andb].
    apply (deriv_affine _ (w * (pw * (gd b c + sumf C (fun k' => if Nat.eqb k' k then 0 else pf b i k' * gf b k' c))))). intros t.
    rewrite (sumf_ext C (fun k' => (if Nat.eqb k' k then t else pf b i k') * gf b k' c) (fun k' => (if Nat.eqb k' k then 0 else pf b i k' * gf b k' c) + (if Nat.eqb k' k then t * gf b k c else 0))).
    + rewrite sumf_plus, sumf_single by exact Hk. ring.
    + intros k' _. destruct (Nat.eqb_spec k' k) as [->|]; ring.
Qed.

(* gradient with respect to a coordinate *)
Hypothesis Hsplat : splat = true.
Lemma coord_put a p t : coord a (put a p t) = t.
Proof. destruct a; reflexivity. Qed.
Definition dir_bit (a : axis) (d : bool * bool * bool) : bool := let '(ux, uy, uz) := d in match a with AxisX => ux | AxisY => uy | AxisZ => uz end.
Lemma rsum_filter {A B} (h : A -> B) (q : B -> bool) (F : B -> R) l : rsum (map F (filter q (map h l))) = rsum (map (fun d => if q (h d) then F (h d) else 0) l).
Proof. induction l as [|d l IH]; [reflexivity|]. cbn [map filter]. rewrite rsum_cons, <- IH. destruct (q (h d)); cbn [map]; rewrite ?rsum_cons; lra. Qed.
Lemma votes_dirs b p f : votes_of b p f = rsum (map (fun d => let cw := direction align (grid_sizes b) p d in if in_grid (grid_sizes b) (fst cw) then snd cw * (pw * source f b (fst cw)) else 0) eight_directions).
Proof.
  unfold votes_of, increments. rewrite Hsplat. destruct (grid_sizes b) as ((gz, gy), gx) eqn:Eg. exact (rsum_filter _ _ (fun cw => snd cw * (pw * source f b (fst cw))) _).
Qed.
Definition slope (a : axis) (g : Z) : R := / 2 * (IZR g - (if align then 1 else 0)).
Lemma grad_step pts b i acc d a : let cw := direction align (grid_sizes b) (pts b i) d in
  coord a (grad_direction C pts pf grid_sizes pw align gd gf b i acc d) = coord a acc +
  (if in_grid (grid_sizes b) (fst cw) then
     let '(ux, uy, uz) := d in let '(gz, gy, gx) := grid_sizes b in let p := pts b i in
     let w u l := part u (l - IZR (trunc l)) in
     let wx := w ux (loc align gx (x3 p)) in let wy := w uy (loc align gy (y3 p)) in let wz := w uz (loc align gz (z3 p)) in
     (match a with AxisX => wy * wz | AxisY => wx * wz | AxisZ => wx * wy end) * (if dir_bit a d then 1 else -1) * slope a (along a (grid_sizes b)) * (pw * source (pf b i) b (fst cw))
   else 0).
Proof.
  cbv zeta. unfold grad_direction, direction, source, along. destruct (grid_sizes b) as ((gz, gy), gx), d as ((ux, uy), uz). cbn [fst snd]. destruct (in_grid _ _); [|lra]. rewrite (fold_sum (fun k => pf b i k * gf b k _)). unfold sumf, slope, dir_bit.
  destruct a; cbn [coord x3 y3 z3]; ring.
Qed.
Lemma grad_fold pts b i a l : forall acc, coord a (fold_left (grad_direction C pts pf grid_sizes pw align gd gf b i) l acc) = coord a acc +
  rsum (map (fun d => let cw := direction align (grid_sizes b) (pts b i) d in
   if in_grid (grid_sizes b) (fst cw) then
     let '(ux, uy, uz) := d in let '(gz, gy, gx) := grid_sizes b in let p := pts b i in
     let w u l := part u (l - IZR (trunc l)) in
     let wx := w ux (loc align gx (x3 p)) in let wy := w uy (loc align gy (y3 p)) in let wz := w uz (loc align gz (z3 p)) in
     (match a with AxisX => wy * wz | AxisY => wx * wz | AxisZ => wx * wy end) * (if dir_bit a d then 1 else -1) * slope a (along a (grid_sizes b)) * (pw * source (pf b i) b (fst cw))
   else 0) l).
Proof. induction l as [|d l IH]; intros acc; [cbn; lra|]. cbn [fold_left map]. rewrite IH, grad_step, rsum_cons. lra. Qed.

Theorem coordinate_gradient pts b i a v V : (b < N)%nat -> (i < P)%nat ->
  not_integer (location align (along a (grid_sizes b)) (coord a (pts b i))) ->
  (forall t, forward_cpu N P C dims (replaced pts b i (put a (pts b i) t)) pf grid_sizes mask pw align splat v = Ok (V t)) ->
  derivable_pt_lim (fun t => pairing dims C (gd b) (gf b) (V t b)) (coord a (pts b i)) (coord a (grad_point C pts pf grid_sizes mask pw align splat gd gf b i)).
Proof.
  intros Hb Hi Hn HV. set (p := pts b i) in *. set (pts' := fun t => replaced pts b i (put a p t)).
  apply (deriv_ext _ (fun t => pairing dims C (gd b) (gf b) (v b) + over_points P (mask b) (fun j => votes_of b (pts' t b j) (pf b j)))); [intros t; apply pairing_value; [exact Hb|exact (HV t)]|].
  unfold grad_point. rewrite Hsplat.
  apply (deriv_val _ _ (0 + (if Reqb (mask b i) 0 then 0 else coord a (fold_left (grad_direction C pts pf grid_sizes pw align gd gf b i) eight_directions (V3 0 0 0))))); [destruct (Reqb (mask b i) 0); [destruct a; cbn; lra|lra]|].
  apply deriv_plus; [apply deriv_const|]. apply (deriv_points (mask b) i (fun j t => votes_of b (pts' t b j) (pf b j))); [exact Hi| |].
  - intros j t Nj. unfold pts', replaced. rewrite Nat.eqb_refl. apply Nat.eqb_neq in Nj. rewrite Nj. reflexivity.
  - apply (deriv_ext _ (fun t => votes_of b (put a p t) (pf b i))); [intros t; unfold pts', replaced; rewrite !Nat.eqb_refl; reflexivity|].
    rewrite grad_fold. replace (coord a (V3 0 0 0)) with 0 by (destruct a; reflexivity). rewrite Rplus_0_l.
    destruct (trunc_local _ Hn) as (e & He & HT). set (sl := slope a (along a (grid_sizes b))).
    assert (HL : forall t, location align (along a (grid_sizes b)) t - location align (along a (grid_sizes b)) (coord a p) = sl * (t - coord a p)) by (intros t; unfold location, sl, slope; destruct align; lra).
    assert (HD : exists dl, 0 < dl /\ forall t, Rabs (t - coord a p) < dl -> trunc (location align (along a (grid_sizes b)) t) = trunc (location align (along a (grid_sizes b)) (coord a p))).
    { exists (e / (Rabs sl + 1)). pose proof (Rabs_pos sl). split; [apply Rdiv_lt_0_compat; lra|]. intros t Ht. apply HT. rewrite HL, Rabs_mult. apply Rle_lt_trans with ((Rabs sl + 1) * Rabs (t - coord a p)); [pose proof (Rabs_pos (t - coord a p)); nra|].
      apply (Rmult_lt_compat_l (Rabs sl + 1)) in Ht; [|lra]. replace ((Rabs sl + 1) * (e / (Rabs sl + 1))) with e in Ht by (field; lra). exact Ht. }
    destruct HD as (dl & Hdl & HD).
    (* the frozen directions *)
    set (T := fun (t : R) (l : R) => l - IZR (trunc l)).
    apply (deriv_local _ (fun t => rsum (map (fun d => (fun (d : bool * bool * bool) t =>
        let cw := direction align (grid_sizes b) p d in if in_grid (grid_sizes b) (fst cw) then
          let '(ux, uy, uz) := d in let '(gz, gy, gx) := grid_sizes b in
          let w u l := part u (l - IZR (trunc l)) in
          let wx := w ux (loc align gx (x3 p)) in let wy := w uy (loc align gy (y3 p)) in let wz := w uz (loc align gz (z3 p)) in
          (match a with AxisX => wy * wz | AxisY => wx * wz | AxisZ => wx * wy end) * part (dir_bit a d) (location align (along a (grid_sizes b)) t - IZR (trunc (location align (along a (grid_sizes b)) (coord a p)))) * (pw * source (pf b i) b (fst cw))
        else 0) d t) eight_directions)) _ _ dl Hdl).
    + intros t Ht. specialize (HD t Ht). rewrite votes_dirs. apply rsum_map_ext. intros d _. cbv zeta.
      assert (Efst : fst (direction align (grid_sizes b) (put a p t) d) = fst (direction align (grid_sizes b) p d)).
      { unfold direction. destruct (grid_sizes b) as ((gz, gy), gx), d as ((ux, uy), uz). cbn [fst]. rewrite !loc_location. destruct a; cbn [put x3 y3 z3 along coord] in *; rewrite HD; reflexivity. }
      rewrite Efst. destruct (in_grid _ _); [|reflexivity]. f_equal.
      unfold direction. destruct (grid_sizes b) as ((gz, gy), gx), d as ((ux, uy), uz). cbn [snd]. rewrite !loc_location. destruct a; cbn [put x3 y3 z3 along coord dir_bit] in *; rewrite HD; ring.
    + apply deriv_rsum. intros d _. cbv zeta. destruct (in_grid _ _); [|apply deriv_const]. destruct d as ((ux, uy), uz), (grid_sizes b) as ((gz, gy), gx) eqn:Eg. 
      set (k := match a with AxisX => _ | AxisY => _ | AxisZ => _ end). set (s := pw * _). set (g := along a (gz, gy, gx)) in *. set (tr := IZR (trunc _)). set (u := dir_bit a (ux, uy, uz)).
      apply (deriv_affine _ (k * part u (location align g 0 - tr) * s)). intros t. pose proof (HL t) as E1. pose proof (HL 0) as E0. unfold part. destruct u; nra.
Qed.
End Backward.
