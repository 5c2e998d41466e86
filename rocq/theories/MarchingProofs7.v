(* Local coordinates, the wrappers and the counterexamples. *)
From Verif Require Import Base RBase Geom LinAlg Transform MarchingTables Marching MarchingSpec MarchingProofs MarchingProofs2 MarchingProofs3 MarchingProofs4 MarchingProofs5 MarchingProofs6.
From Coq Require Import Lra.
Local Open Scope R_scope.

Lemma to_local_ok D H W vs : (2 <= D)%nat -> (2 <= H)%nat -> (2 <= W)%nat -> to_local D H W vs = Ok (map (scaled D H W) vs).
Proof.
  intros HD HH HW. apply le_INR in HD, HH, HW. cbn [INR] in HD, HH, HW. unfold to_local. unfold mk_translate, mk_scale. cbn [handle_input handle_coord rbind length Nat.max Nat.eqb orb andb expand repeat zip3 map].
  unfold compose, inverse, inverse_parts. cbn [t_matrix t_list app map rmap kind_inverse].
  rewrite (inv4_eq (translate_mat (V3 1 1 1)) (translate_mat (V3 (-1) (-1) (-1)))) by (unfold mul4, translate_mat, id4; cbn; apply M4_eq; ring). cbn [rbind].
  unfold scale_mat. cbn [n00 n11 n22 n33 x3 y3 z3].
  destruct (Reqb_spec ((INR W - 1) * / 2) 0); [lra|]. destruct (Reqb_spec ((INR H - 1) * / 2) 0); [lra|]. destruct (Reqb_spec ((INR D - 1) * / 2) 0); [lra|]. destruct (Reqb_spec 1 0); [lra|]. cbn [orb rbind rmap rev app].
  unfold transform_points. cbn [get_matrix rbind broadcast length Nat.eqb map combine fst snd as_batch reshape].
  match goal with |- context [mul4 (mul4 id4 ?s) ?t] => replace (mul4 (mul4 id4 s) t) with (M4 (2 / (INR W - 1)) 0 0 0 0 (2 / (INR H - 1)) 0 0 0 0 (2 / (INR D - 1)) 0 (-1) (-1) (-1) 1) by (unfold mul4, id4, translate_mat; cbn [n00 n01 n02 n03 n10 n11 n12 n13 n20 n21 n22 n23 n30 n31 n32 n33 x3 y3 z3]; apply M4_eq; field; lra) end.
  assert (F : forall q, from_h None (vmul4 (to_h q) (M4 (2 / (INR W - 1)) 0 0 0 0 (2 / (INR H - 1)) 0 0 0 0 (2 / (INR D - 1)) 0 (-1) (-1) (-1) 1)) = Some (scaled D H W q)).
  { intros [x y z]. unfold from_h, vmul4, to_h, clamp_denom, scaled. cbn [x4 y4 z4 w4 n00 n01 n02 n03 n10 n11 n12 n13 n20 n21 n22 n23 n30 n31 n32 n33 x3 y3 z3].
    match goal with |- context [Reqb ?a 0] => replace a with 1 by ring end. destruct (Reqb_spec 1 0); [lra|]. f_equal. f_equal; field; lra. }
  rewrite (map_ext _ _ F). clear F. induction vs as [|v vs IH]; [reflexivity|]. cbn [map rmap rbind] in *. rewrite IH. reflexivity.
Qed.
Lemma finish_mesh D H W (local : bool) (P : list vec3 -> list (nat * nat * nat) -> Prop) vs fs : (2 <= D)%nat -> (2 <= H)%nat -> (2 <= W)%nat -> (vs = [] <-> fs = []) ->
  finish local D H W (vs, fs) = Ok (if local then map (scaled D H W) vs else vs, fs).
Proof.
  intros HD HH HW E. unfold finish. cbn [fst snd]. destruct vs as [|v vs], fs as [|t fs].
  - now destruct local.
  - discriminate (proj1 E eq_refl).
  - discriminate (proj2 E eq_refl).
  - destruct local; [|reflexivity]. rewrite to_local_ok by assumption. reflexivity.
Qed.
Lemma out_empty T (g : link -> vec3) : map g (nub leqb (flat_map list3 T)) = [] <-> map (idx3 leqb (nub leqb (flat_map list3 T))) T = [].
Proof.
  destruct T as [|[[a b] c] T]; [split; reflexivity|]. split; intros E; [|discriminate E]. apply map_eq_nil in E. exfalso. assert (I : In a (nub leqb (flat_map list3 ((a, b, c) :: T)))) by (apply E_in; cbn; auto). rewrite E in I. destruct I.
Qed.
Definition scale_if (local : bool) D H W (vs : list vec3) := if local then map (scaled D H W) vs else vs.
Lemma naive_wrap D H W fs iso local : (2 <= D)%nat -> (2 <= H)%nat -> (2 <= W)%nat ->
  marching_cubes_naive (map (sample D H W) fs) D H W (Some iso) local =
  Ok (map (fun f => (scale_if local D H W (map (pos f iso) (used D H W f iso differ_py)), map (idx3 leqb (used D H W f iso differ_py)) (tris D H W f iso differ_py))) fs).
Proof.
  intros HD HH HW. unfold marching_cubes_naive. induction fs as [|f fs IH]; [reflexivity|]. cbn [map rmap]. change (threshold (Some iso) (sample D H W f)) with (@Ok R iso). cbn [rbind]. rewrite py_run. cbn [rbind]. rewrite (finish_mesh D H W local (fun _ _ => True)); try assumption; [|apply out_empty]. cbn [rbind]. rewrite IH. reflexivity.
Qed.
Lemma cpp_wrap D H W fs iso local : (2 <= D)%nat -> (2 <= H)%nat -> (2 <= W)%nat -> (Z.of_nat W * Z.of_nat H * Z.of_nat D <= 2 ^ 24)%Z ->
  marching_cubes (map (sample D H W) fs) D H W (Some iso) local =
  Ok (map (fun f => (scale_if local D H W (map (pos f iso) (used D H W f iso differ_cpp)), map (idx3 leqb (used D H W f iso differ_cpp)) (tris D H W f iso differ_cpp))) fs).
Proof.
  intros HD HH HW HV. unfold marching_cubes. induction fs as [|f fs IH]; [reflexivity|]. cbn [map rmap]. change (threshold (Some iso) (sample D H W f)) with (@Ok R iso). cbn [rbind]. rewrite cpp_run by exact HV. cbn [rbind]. rewrite (finish_mesh D H W local (fun _ _ => True)); try assumption; [|apply out_empty]. cbn [rbind]. rewrite IH. reflexivity.
Qed.
Lemma wrap_level D H W iso (differ : vec3 -> vec3 -> bool) local fs : (2 <= D)%nat -> (2 <= H)%nat -> (2 <= W)%nat ->
  (forall f, In f fs -> all_clear D H W f iso /\ tris D H W f iso differ = full D H W f iso) ->
  Forall2 (fun f o => exists verts, level_mesh D H W f iso verts (snd o) /\ fst o = scale_if local D H W verts) fs
    (map (fun f => (scale_if local D H W (map (pos f iso) (used D H W f iso differ)), map (idx3 leqb (used D H W f iso differ)) (tris D H W f iso differ))) fs).
Proof.
  intros HD HH HW HC. induction fs as [|f fs IH]; [constructor|]. cbn [map]. constructor; [|apply IH; intros g Hg; apply HC; now right]. destruct (HC f (or_introl eq_refl)) as (C & E). cbn [fst snd]. unfold used. rewrite E. eexists. split; [|reflexivity]. now apply full_mesh.
Qed.
Lemma wrap_any D H W iso differ (apart : vec3 -> vec3 -> Prop) local fs : (forall p q, differ p q = true -> apart p q) ->
  Forall2 (fun f o => exists verts, partial_mesh D H W f iso apart verts (snd o) /\ fst o = scale_if local D H W verts) fs
    (map (fun f => (scale_if local D H W (map (pos f iso) (used D H W f iso differ)), map (idx3 leqb (used D H W f iso differ)) (tris D H W f iso differ))) fs).
Proof. intros HA. induction fs as [|f fs IH]; [constructor|]. cbn [map]. constructor; [|exact IH]. cbn [fst snd]. eexists. split; [|reflexivity]. now apply any_mesh. Qed.
Lemma differ_py_apart p q : differ_py p q = true -> p <> q.
Proof. intros Hd ->. unfold differ_py in Hd. destruct q as [a b c]. cbn in Hd. destruct (Reqb_spec a a), (Reqb_spec b b), (Reqb_spec c c); try contradiction. discriminate. Qed.
Lemma differ_cpp_apart p q : differ_cpp p q = true -> apart_by EPS p q.
Proof. unfold differ_cpp, apart_by. rewrite !orb_true_iff. intros [[K|K]|K]; [left|right; left|right; right]; match goal with K : Rleb ?a ?b = true |- _ => destruct (Rleb_spec a b); [assumption|discriminate] end. Qed.

(* ---- the default level ---- *)
Lemma fold_max l : forall v, (forall w, In w (v :: l) -> w <= fold_left Rmax l v) /\ In (fold_left Rmax l v) (v :: l).
Proof.
  induction l as [|a l IH]; intros v; cbn [fold_left].
  - split; [intros w [->|[]]; lra|now left].
  - destruct (IH (Rmax v a)) as (A & B). split.
    + intros w [->|[->|Hw]]; [pose proof (A _ (or_introl eq_refl)); pose proof (Rmax_l w a); lra|pose proof (A _ (or_introl eq_refl)); pose proof (Rmax_r v w); lra|apply A; now right].
    + destruct B as [B|B]; [|right; now right]. rewrite <- B. unfold Rmax. destruct (Rle_dec v a); [right; now left|now left].
Qed.
Lemma fold_min l : forall v, (forall w, In w (v :: l) -> fold_left Rmin l v <= w) /\ In (fold_left Rmin l v) (v :: l).
Proof.
  induction l as [|a l IH]; intros v; cbn [fold_left].
  - split; [intros w [->|[]]; lra|now left].
  - destruct (IH (Rmin v a)) as (A & B). split.
    + intros w [->|[->|Hw]]; [pose proof (A _ (or_introl eq_refl)); pose proof (Rmin_l w a); lra|pose proof (A _ (or_introl eq_refl)); pose proof (Rmin_r v w); lra|apply A; now right].
    + destruct B as [B|B]; [|right; now right]. rewrite <- B. unfold Rmin. destruct (Rle_dec v a); [now left|right; now left].
Qed.
Lemma threshold_mid vol : concat (concat vol) <> [] -> exists hi lo, In hi (concat (concat vol)) /\ In lo (concat (concat vol)) /\ (forall v, In v (concat (concat vol)) -> lo <= v <= hi) /\ threshold None vol = Ok ((hi + lo) / 2).
Proof.
  unfold threshold. destruct (concat (concat vol)) as [|v l]; [easy|]. intros _. destruct (fold_max l v) as (A & B), (fold_min l v) as (A' & B'). exists (fold_left Rmax l v), (fold_left Rmin l v). repeat split; try assumption; auto.
Qed.

(* ---- counterexamples ---- *)
Definition hidden : field := fun x y z => match x, y, z with O, O, O => - (/ 200000) | S O, O, S O => -1 | _, _, _ => 1 end.
Lemma hidden_bits : bits hidden 0 (0, 0, 0)%nat = [true; false; false; false; false; true; false; false].
Proof.
  unfold bits, below. cbn [seq map corner at_point hidden Nat.land Nat.shiftr Nat.add Nat.div2 Nat.odd]. cbn.
  repeat match goal with |- context [Rltb ?a ?b] => destruct (Rltb_spec a b); [|]; try lra end; reflexivity.
Qed.
Lemma hidden_tris differ : (forall p, differ p p = false) -> tris 2 2 2 hidden 0 differ = [].
Proof.
  intros Hd. unfold tris, all_rows. change (cubes 2 2 2) with [(0, 0, 0)%nat]. cbn [map flat_map]. unfold links_of. rewrite hidden_bits. change (row [true; false; false; false; false; true; false; false]) with [0; 8; 3; 1; 2; 10]%nat. unfold stored. cbn [map chunk3 take_while good3].
  assert (E : forall a, a = 0%nat \/ a = 8%nat -> pos hidden 0 (glob (0, 0, 0)%nat a) = V3 0 0 0).
  { intros a Ha. unfold pos, snapped. assert (N : near (glob (0, 0, 0)%nat a) = (0, 0, 0)%nat) by (destruct Ha as [-> | ->]; reflexivity). rewrite N. change (at_point hidden (0, 0, 0)%nat) with (- (/ 200000)). destruct (Rltb_spec (Rabs (0 - - / 200000)) EPS) as [L|L]; [reflexivity|]. exfalso. apply L. unfold EPS. rewrite Rabs_pos_eq; lra. }
  rewrite !E by auto. rewrite Hd. reflexivity.
Qed.
Lemma cut_level D H W f iso e : crossing D H W f iso e -> exists t, 0 <= t <= 1 /\ cut f iso e = along e t /\ (1 - t) * at_point f (near e) + t * at_point f (far e) = iso.
Proof.
  intros C. destruct (ratio_between D H W f iso e C) as (B & N). exists (ratio f iso e). split; [exact B|]. split; [reflexivity|]. unfold ratio. field. exact N.
Qed.
Lemma pm_clear (inside : nat -> nat -> nat -> bool) D H W : all_clear D H W (fun x y z => if inside x y z then -1 else 1) 0.
Proof.
  intros e _. unfold clear_cut. assert (V : forall p, at_point (fun x y z => if inside x y z then -1 else 1) p = -1 \/ at_point (fun x y z => if inside x y z then -1 else 1) p = 1) by (intros [[x y] z]; cbn; destruct (inside x y z); auto).
  destruct (V (near e)) as [-> | ->], (V (far e)) as [-> | ->]; unfold EPS, Rabs; repeat match goal with |- context [Rcase_abs ?x] => destruct (Rcase_abs x) end; lra.
Qed.
