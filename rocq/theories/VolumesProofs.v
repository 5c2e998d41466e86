From Verif Require Import Base RBase Geom LinAlg Transform TransformSpec TransformProofs TransformProofs2 Volumes VolumesSpec.
Local Open Scope R_scope.

(* ---- lists ---- *)
Lemma f2map_r {A B C} (P : A -> C -> Prop) (g : B -> C) l m : Forall2 P l (map g m) <-> Forall2 (fun a b => P a (g b)) l m.
Proof. revert m. induction l as [|a l IH]; intros [|b m]; cbn; split; intros H; inversion H; subst; constructor; try assumption; apply IH; assumption. Qed.
Lemma f2map_l {A B C} (P : C -> B -> Prop) (g : A -> C) l m : Forall2 P (map g l) m <-> Forall2 (fun a b => P (g a) b) l m.
Proof. revert m. induction l as [|a l IH]; intros [|b m]; cbn; split; intros H; inversion H; subst; constructor; try assumption; apply IH; assumption. Qed.
Lemma gets_map {A B} (f : A -> B) ps l l' : gets ps l l' -> gets ps (map f l) (map f l').
Proof. intros H. apply f2map_r. induction H as [|p x ps l' E F IH]; constructor; [rewrite nth_error_map, E; reflexivity|exact IH]. Qed.
Lemma gets_combine {A B} ps (l : list A) (m : list B) l' m' : gets ps l l' -> gets ps m m' -> gets ps (combine l m) (combine l' m').
Proof.
  intros H. revert m'. induction H as [|p x ps l' E F IH]; intros m' G; inversion G; subst; [constructor|]. cbn [combine]. constructor; [|apply IH; assumption].
  clear - E H1. revert p m E H1. induction l as [|a l IH]; intros [|p] [|b m] E H1; try discriminate; cbn in *; [injection E as ->; injection H1 as ->; reflexivity|apply IH; assumption].
Qed.
Lemma gets_length {A} ps (l l' : list A) : gets ps l l' -> length l' = length ps.
Proof. intros H. induction H; cbn; [reflexivity|rewrite IHForall2; reflexivity]. Qed.
Lemma gets_fun {A} ps (l a b : list A) : gets ps l a -> gets ps l b -> a = b.
Proof. intros H. revert b. induction H as [|p x ps a E F IH]; intros b G; inversion G; subst; [reflexivity|]. f_equal; [congruence|apply IH; assumption]. Qed.
Lemma chosen_lt n ix ps : chosen n ix ps -> Forall (fun p => (p < n)%nat) ps.
Proof.
  assert (B : forall i p, in_bounds n i p -> (p < n)%nat) by (intros i p [H E]; destruct (Z.ltb_spec i 0); lia).
  destruct ix as [i|l|b]; cbn.
  - intros (p & -> & H). constructor; [apply (B i), H|constructor].
  - intros H. induction H; constructor; [eapply B; eassumption|assumption].
  - intros (_ & ->). apply Forall_forall. intros p Hp. apply filter_In in Hp. destruct Hp as [Hp _]. apply in_seq in Hp. lia.
Qed.
Lemma gets_exists {A} ps (l : list A) : Forall (fun p => (p < length l)%nat) ps -> exists l', gets ps l l'.
Proof.
  intros H. induction H as [|p ps Hp F IH]; [exists []; constructor|]. destruct IH as (l' & G). destruct (nth_error l p) as [x|] eqn:E.
  - exists (x :: l'). constructor; assumption.
  - apply nth_error_None in E. lia.
Qed.

Lemma index1_ok n i p : in_bounds n i p -> index1 n i = Ok p.
Proof.
  intros [H E]. unfold index1. destruct (Z.ltb_spec i (- Z.of_nat n)); [lia|]. destruct (Z.leb_spec (Z.of_nat n) i); [lia|]. cbn [orb]. rewrite <- E, Nat2Z.id. reflexivity.
Qed.
Lemma mask_gets {A} : forall b (l l' : list A), length b = length l -> gets (filter (fun p => nth p b false) (seq 0 (length l))) l l' -> l' = map snd (filter fst (combine b l)).
Proof.
  induction b as [|x b IH]; intros [|a l] l' L H; try discriminate; cbn [length seq filter] in H; [inversion H; reflexivity|].
  injection L as L. cbn [combine filter fst nth] in *.
  assert (Sh : filter (fun p => nth p (x :: b) false) (seq 1 (length l)) = map S (filter (fun p => nth p b false) (seq 0 (length l)))).
  { rewrite <- seq_shift. generalize (seq 0 (length l)). clear. intros s. induction s as [|q s IHs]; [reflexivity|]. cbn [map filter]. change (nth (S q) (x :: b) false) with (nth q b false). destruct (nth q b false); cbn [map]; rewrite IHs; reflexivity. }
  assert (G : forall m, gets (filter (fun p => nth p (x :: b) false) (seq 1 (length l))) (a :: l) m -> m = map snd (filter fst (combine b l))).
  { intros m Hm. apply IH; [exact L|]. rewrite Sh in Hm. unfold gets in Hm. apply f2map_l in Hm. exact Hm. }
  cbn [nth] in G. destruct x.
  - inversion H; subst. cbn in H2. injection H2 as <-. cbn [map snd]. f_equal. apply G. assumption.
  - apply G. exact H.
Qed.
(* an index as vgetitem passes it on *)
Definition norm_ix (ix : index) : index := match ix with IxInt i => IxList [i] | _ => ix end.
Lemma take_index_gets {A} ix ps (l l' : list A) : chosen (length l) ix ps -> gets ps l l' -> take_index l (norm_ix ix) = Ok l'.
Proof.
  assert (B : forall is_ ps l', Forall2 (in_bounds (length l)) is_ ps -> gets ps l l' -> rmap (fun i => j <- index1 (length l) i ;; rget l j) is_ = Ok l').
  { intros is_ ps0 l0 H. revert l0. induction H as [|i p is_ ps0 E F IH]; intros l0 G; inversion G; subst; [reflexivity|]. cbn [rmap]. rewrite (IH _ H3), (index1_ok _ _ _ E). cbn [rbind].
    unfold rget. rewrite H1. reflexivity. }
  destruct ix as [i|is_|b]; cbn [norm_ix take_index].
  - intros (p & -> & H) G. apply (B [i] [p]); [constructor; [exact H|constructor]|exact G].
  - intros H G. apply (B is_ ps); assumption.
  - intros (L & ->) G. rewrite (proj2 (Nat.eqb_eq _ _) L). f_equal. symmetry. apply mask_gets; assumption.
Qed.

(* ---- sizes ---- *)
Definition le3 (a b : shape3) : Prop := let '(a1, a2, a3) := a in let '(b1, b2, b3) := b in (a1 <= b1 /\ a2 <= b2 /\ a3 <= b3)%nat.
Lemma le3_refl a : le3 a a. Proof. destruct a as [[a b] c]. cbn. lia. Qed.
Lemma fold_max3 l s : In s l -> le3 s (fold_right max3 (0, 0, 0)%nat l).
Proof.
  induction l as [|a l IH]; intros [].
  - subst a. destruct s as [[s1 s2] s3]. cbn [fold_right]. destruct (fold_right max3 (0, 0, 0)%nat l) as [[x y] z]. cbn. lia.
  - specialize (IH H). destruct s as [[s1 s2] s3], a as [[a1 a2] a3]. cbn [fold_right]. destruct (fold_right max3 (0, 0, 0)%nat l) as [[x y] z]. cbn in *. lia.
Qed.
Lemma shape_eqb_spec a b : reflect (a = b) (shape_eqb a b).
Proof.
  destruct a as [[a1 a2] a3], b as [[b1 b2] b3]. cbn. destruct (Nat.eqb_spec a1 b1), (Nat.eqb_spec a2 b2), (Nat.eqb_spec a3 b3); cbn; constructor; congruence.
Qed.
Lemma sizes_eqb_spec : forall a b, reflect (a = b) (sizes_eqb a b).
Proof.
  induction a as [|x a IH]; intros [|y b]; cbn; try (constructor; congruence). destruct (shape_eqb_spec x y), (IH b); cbn; constructor; congruence.
Qed.

(* ---- tensors ---- *)
Lemma ok_inj {A} (a b : A) : Ok a = Ok b -> a = b.
Proof. congruence. Qed.
Definition holds (t : tensor5) (l : list tensor4) : Prop :=
  Forall2 (fun f y => chan y = chans t /\ le3 (dims y) (res t) /\ forall c k j i, below c k j i (chan y) (dims y) = true -> f c k j i = value y c k j i) (items t) l.
Lemma holds_length t l : holds t l -> length (items t) = length l.
Proof. intros H. apply (Forall2_length _ _ _ H). Qed.
Lemma convert_holds x t sizes : convert x = Ok (t, sizes) -> holds t (elements x) /\ sizes = map dims (elements x).
Proof.
  destruct x as [l|u]; cbn [convert elements].
  - unfold list_to_padded4. destruct (filter (fun y => (0 <? chan y)%nat) l) as [|y0 ys] eqn:EF; [discriminate|]. cbn [rbind].
    destruct l as [|y l]; [discriminate|]. destruct (forallb _ _) eqn:EC; [|discriminate]. intros H. apply ok_inj, pair_equal_spec in H. destruct H as [<- <-]. split; [|reflexivity].
    rewrite forallb_forall in EC. assert (C : forall z, In z (y :: l) -> chan z = chan y) by (intros z Hz; apply Nat.eqb_eq, EC, Hz).
    assert (P : (0 < chan y)%nat).
    { assert (I : In y0 (filter (fun y => (0 <? chan y)%nat) (y :: l))) by (rewrite EF; left; reflexivity). apply filter_In in I. destruct I as [I J]. apply Nat.ltb_lt in J. rewrite <- (C _ I). exact J. }
    assert (FA : y0 :: ys = y :: l).
    { rewrite <- EF. clear - C P. assert (G : forall m, (forall z, In z m -> chan z = chan y) -> filter (fun y => (0 <? chan y)%nat) m = m).
      { induction m as [|a m IH]; intros H; [reflexivity|]. cbn [filter]. rewrite (H a (or_introl eq_refl)). destruct (Nat.ltb_spec 0 (chan y)); [|lia]. f_equal. apply IH. intros z Hz. apply H. right. exact Hz. }
      apply G. exact C. }
    unfold holds. cbn [items chans res]. rewrite FA.
    assert (MC : max_nat (map chan (y :: l)) = chan y).
    { assert (G : forall m, (forall z, In z m -> chan z = chan y) -> (max_nat (map chan m) <= chan y)%nat) by (intros m H; induction m as [|a m IH]; cbn; [lia|]; rewrite (H a (or_introl eq_refl)); specialize (IH (fun z Hz => H z (or_intror Hz))); unfold max_nat in *; cbn in *; lia).
      apply Nat.le_antisymm; [apply G, C|apply max_nat_ge; left; reflexivity]. }
    rewrite MC. assert (G : forall m, (forall z, In z m -> In z (y :: l)) -> Forall2 (fun (f : cells4) y1 => chan y1 = chan y /\ le3 (dims y1) (fold_right max3 (0, 0, 0)%nat (map dims (y :: l))) /\ (forall c k j i, below c k j i (chan y1) (dims y1) = true -> f c k j i = value y1 c k j i)) (map pad_item m) m).
    { induction m as [|a m IH]; intros H; constructor.
      - split; [apply C, H; left; reflexivity|]. split; [apply fold_max3, in_map, H; left; reflexivity|]. intros c k j i B. unfold pad_item. rewrite B. reflexivity.
      - apply IH. intros z Hz. apply H. right. exact Hz. }
    apply G. intros z Hz. exact Hz.
  - intros H. injection H as <- <-. split.
    + unfold holds. apply f2map_r. induction (items u) as [|f fs IH]; constructor; [|exact IH]. cbn. split; [reflexivity|]. split; [apply le3_refl|reflexivity].
    + rewrite map_map. cbn. clear. induction (items u); cbn; [reflexivity|]. f_equal. assumption.
Qed.
Lemma max3_repeat n s : (0 < n)%nat -> fold_right max3 (0, 0, 0)%nat (repeat s n) = s.
Proof.
  intros Hn. destruct s as [[s1 s2] s3]. induction n as [|[|n] IH]; [lia| |].
  - cbn. f_equal; [f_equal|]; lia.
  - cbn [repeat fold_right] in *. rewrite IH by lia. cbn. f_equal; [f_equal|]; lia.
Qed.
Lemma convert_res x t sizes : convert x = Ok (t, sizes) -> elements x <> [] -> res t = fold_right max3 (0, 0, 0)%nat sizes.
Proof.
  destruct x as [l|u]; cbn [convert elements].
  - unfold list_to_padded4. destruct (filter (fun y => (0 <? chan y)%nat) l) as [|y0 ys] eqn:EF; [discriminate|]. cbn [rbind].
    destruct l as [|y l]; [discriminate|]. destruct (forallb _ _) eqn:EC; [|discriminate]. intros H _. apply ok_inj, pair_equal_spec in H. destruct H as [<- <-]. cbn [res].
    rewrite forallb_forall in EC. assert (C : forall z, In z (y :: l) -> chan z = chan y) by (intros z Hz; apply Nat.eqb_eq, EC, Hz).
    assert (P : (0 < chan y)%nat).
    { assert (I : In y0 (filter (fun y => (0 <? chan y)%nat) (y :: l))) by (rewrite EF; left; reflexivity). apply filter_In in I. destruct I as [I J]. apply Nat.ltb_lt in J. rewrite <- (C _ I). exact J. }
    rewrite <- EF. clear - C P. assert (G : forall m, (forall z, In z m -> chan z = chan y) -> filter (fun y => (0 <? chan y)%nat) m = m).
    { induction m as [|a m IH]; intros H; [reflexivity|]. cbn [filter]. rewrite (H a (or_introl eq_refl)). destruct (Nat.ltb_spec 0 (chan y)); [|lia]. f_equal. apply IH. intros z Hz. apply H. right. exact Hz. }
    rewrite G by exact C. reflexivity.
  - intros H NE. injection H as <- <-. symmetry. apply max3_repeat. destruct (items u) as [|f0 fs0]; [exfalso; apply NE; reflexivity|cbn; lia].
Qed.
Lemma convert_total x : good_arg x -> exists t, convert x = Ok (t, map dims (elements x)).
Proof.
  intros (NE & n & C & P). destruct x as [l|u]; cbn [convert elements] in *.
  - unfold list_to_padded4. assert (FA : filter (fun y => (0 <? chan y)%nat) l = l).
    { clear NE. induction C as [|a m E C IH]; [reflexivity|]. cbn [filter]. rewrite E. destruct (Nat.ltb_spec 0 n); [|lia]. f_equal. exact IH. }
    rewrite FA. destruct l as [|y l]; [congruence|]. cbn [rbind].
    assert (EC : forallb (fun z => (chan z =? chan y)%nat) (y :: l) = true).
    { apply forallb_forall. rewrite Forall_forall in C. intros z Hz. apply Nat.eqb_eq. rewrite (C z Hz), (C y (or_introl eq_refl)). reflexivity. }
    rewrite EC. eexists. reflexivity.
  - eexists. f_equal. f_equal. rewrite map_map. cbn. clear. induction (items u); cbn; [reflexivity|]. f_equal. assumption.
Qed.
Lemma checked_ok sizes x t : checked sizes x = Ok t -> holds t (elements x) /\ map dims (elements x) = sizes.
Proof.
  unfold checked. destruct (convert x) as [[t' s]|e] eqn:E; [|discriminate]. cbn [rbind fst snd]. destruct (sizes_eqb_spec sizes s); [|discriminate].
  intros H. injection H as <-. apply convert_holds in E. destruct E as [E ->]. split; [exact E|symmetry; assumption].
Qed.
Lemma checked_res sizes x t : checked sizes x = Ok t -> sizes <> [] -> res t = fold_right max3 (0, 0, 0)%nat sizes.
Proof.
  unfold checked. destruct (convert x) as [[t' s]|e] eqn:E; [|discriminate]. cbn [rbind fst snd]. destruct (sizes_eqb_spec sizes s); [|discriminate].
  intros H NE. injection H as <-. subst s. apply (convert_res _ _ _ E). apply convert_holds in E. destruct E as [_ E]. intros EE. rewrite EE in E. apply NE. exact E.
Qed.
Lemma checked_total sizes x : fits x sizes -> exists t, checked sizes x = Ok t.
Proof.
  intros (G & <-). destruct (convert_total x G) as (t & E). exists t. unfold checked. rewrite E. cbn [rbind fst snd]. destruct (sizes_eqb_spec (map dims (elements x)) (map dims (elements x))); [reflexivity|congruence].
Qed.
Lemma checked_wrong sizes x : good_arg x -> map dims (elements x) <> sizes -> checked sizes x = Fail EValue.
Proof.
  intros G N. destruct (convert_total x G) as (t & E). unfold checked. rewrite E. cbn [rbind fst snd]. destruct (sizes_eqb_spec sizes (map dims (elements x))); [congruence|reflexivity].
Qed.
Lemma to_list_holds t l : holds t l -> exists m, to_list t (map dims l) = Ok m /\ same_lists m l.
Proof.
  intros H. unfold to_list. rewrite map_length, (holds_length _ _ H), Nat.eqb_refl. cbn [negb]. eexists. split; [reflexivity|].
  unfold same_lists. apply f2map_l. assert (G : forall fs l, Forall2 (fun (f : cells4) y => chan y = chans t /\ le3 (dims y) (res t) /\ (forall c k j i, below c k j i (chan y) (dims y) = true -> f c k j i = value y c k j i)) fs l ->
     Forall2 (fun a b => same4 {| chan := chans t; dims := let '(d, h, w) := fst a in let '(D, H, W) := res t in (Nat.min d D, Nat.min h H, Nat.min w W); value := snd a |} b) (combine (map dims l) fs) l).
  { clear. intros fs l H. induction H as [|f y fs l (C & L & V) F IH]; cbn [map combine]; constructor; [|exact IH]. cbn [fst snd].
    assert (D : (let '(d, h, w) := dims y in let '(D, H, W) := res t in (Nat.min d D, Nat.min h H, Nat.min w W)) = dims y).
    { destruct (dims y) as [[d h] w], (res t) as [[D H] W]. cbn in L. f_equal; [f_equal|]; lia. }
    rewrite D. split; [symmetry; exact C|]. split; [reflexivity|]. cbn. rewrite <- C. exact V. }
  apply G, H.
Qed.

(* ---- arguments ---- *)
Lemma row3_rows rows vs : Forall2 (fun r v => r = [x3 v; y3 v; z3 v]) rows vs -> rmap row3 rows = Ok vs.
Proof. intros H. induction H as [|r v rows vs -> F IH]; [reflexivity|]. cbn [rmap]. rewrite IH. destruct v. reflexivity. Qed.
Lemma vectors_ok N x vs : vectors N x vs -> convert_property x N = Ok vs /\ length vs = N.
Proof.
  intros H. destruct H; cbn.
  - split; [reflexivity|apply repeat_length].
  - split; [reflexivity|apply repeat_length].
  - split; [reflexivity|apply repeat_length].
  - assert (LV : length vs = length rows) by (clear - H0; induction H0; cbn; congruence). split; [|congruence].
    rewrite H, Nat.eqb_refl, orb_true_r. pose proof (row3_rows _ _ H0) as E. destruct rows as [|r [|r' rows]]; [exact E| |exact E].
    cbn [length] in H. cbn [rmap] in E. destruct (row3 r) as [v|]; [|discriminate]. cbn [rbind] in *. injection E as <-. subst N. reflexivity.
Qed.
Lemma voxel_ok N x vs : (0 < N)%nat -> voxel_sizes N x vs -> handle_voxel_size x N = Ok vs /\ length vs = N.
Proof.
  intros P H. destruct H as [x vs H|r|r|r|rs L].
  - assert (E : handle_voxel_size x N = convert_property x N).
    { unfold handle_voxel_size. destruct H as [a b c|a b c|a b c|rows vs L F]; [reflexivity|reflexivity|cbn [Nat.eqb]; rewrite andb_false_r; reflexivity|]. destruct F as [|r v rows vs -> F]; [cbn in L; lia|].
      destruct rows as [|r' rows]; cbn [Nat.eqb]; rewrite andb_false_r; reflexivity. }
    rewrite E. apply vectors_ok, H.
  - split; [reflexivity|apply repeat_length].
  - split; [reflexivity|apply repeat_length].
  - split; [reflexivity|apply repeat_length].
  - split; [|rewrite map_length; exact L]. destruct rs as [|r [|r' rs]].
    + cbn in L. lia.
    + cbn in L. subst N. reflexivity.
    + cbn [map length] in *. unfold handle_voxel_size. cbn [length]. rewrite !map_length, (proj2 (Nat.eqb_eq (S (S (length rs))) N) L). cbn [andb Nat.eqb].
      apply vectors_ok. apply (row_each N (map (fun r => r ++ r ++ r) ([r] :: [r'] :: map (fun r0 => [r0]) rs))); [rewrite map_length; cbn [length]; rewrite map_length; exact L|].
      cbn [map app]. repeat constructor. apply f2map_l, f2map_l, f2map_r. clear. induction rs; constructor; [reflexivity|assumption].
Qed.

(* ---- the transform ---- *)
Definition mat_of (f : shape3 * vec3 * vec3) : mat4 :=
  mul4 (scale_mat (scale_row (fst f))) (translate_mat (V3 (- x3 (snd f)) (- y3 (snd f)) (- z3 (snd f)))).
Lemma broadcast_zip {A B C} (f : A -> B -> C) a b : length a = length b -> broadcast f a b = Ok (map (fun p => f (fst p) (snd p)) (combine a b)).
Proof. intros L. unfold broadcast. rewrite L, Nat.eqb_refl. reflexivity. Qed.
Lemma local_to_world_ok sizes vs ts : length sizes = length vs -> length vs = length ts ->
  exists tf, local_to_world sizes vs ts = Ok tf /\ wf tf /\ t_kind tf = KGeneric /\ get_matrix tf = Ok (map mat_of (combine (combine sizes vs) ts)).
Proof.
  intros L1 L2. unfold local_to_world, mk_scale, mk_translate. cbn [handle_input rbind]. eexists. split; [reflexivity|].
  split; [|split; [reflexivity|]].
  - apply wf_generic. cbn [t_list app]. constructor; [|constructor]. apply (wf_translate (CMat (map (fun v => V3 (- x3 v) (- y3 v) (- z3 v)) ts)) CNone CNone). reflexivity.
  - rewrite get_matrix_compose1. cbn [get_matrix rbind]. rewrite broadcast_zip by (rewrite !map_length, combine_length; lia). f_equal.
    clear. revert vs ts. induction sizes as [|s sizes IH]; intros [|v vs] [|t ts]; try reflexivity. cbn. f_equal. apply IH.
Qed.
Lemma mat_point f p : from_h None (vmul4 (to_h p) (mat_of f)) = Some (world_of f p).
Proof.
  destruct f as [[[[d h] w] v] t]. destruct p as [x y z], v as [vx vy vz], t as [tx ty tz]. unfold from_h, clamp_denom. cbn.
  match goal with |- context[Reqb ?e 0] => replace e with 1 by ring end. destruct (Reqb_spec 1 0) as [E|_]; [lra|]. f_equal. unfold Rdiv. rewrite Rinv_1. f_equal; ring.
Qed.

(* ---- the invariant ---- *)
Record repr (v : volumes) (a : batch) : Prop := {
  r_dens : holds (densities v) (a_dens a);
  r_feats : match features v, a_feats a with Some t, Some l => holds t l /\ map dims l = map dims (a_dens a) | None, None => True | _, _ => False end;
  r_same : match features v with Some t => res t = res (densities v) | None => True end;
  r_sizes : get_grid_sizes v = map dims (a_dens a);
  r_pos : a_dens a <> [];
  r_voxel : length (a_voxel a) = length (a_dens a);
  r_trans : length (a_trans a) = length (a_dens a);
  r_res : Forall (fun s => le3 s (l_res (loc v))) (get_grid_sizes v);
  r_max : get_align_corners v = false -> l_res (loc v) = fold_right max3 (0, 0, 0)%nat (get_grid_sizes v);
  r_align : get_align_corners v = a_align a;
  r_wf : wf (l_tf (loc v));
  r_kind : t_kind (l_tf (loc v)) = KGeneric;
  r_mat : get_matrix (l_tf (loc v)) = Ok (map mat_of (frames a)) }.

Lemma new_locator_ok N sizes voxel trans align vs ts : N = length sizes -> (0 < N)%nat -> voxel_sizes N voxel vs -> vectors N trans ts ->
  exists tf, new_locator N sizes voxel trans align = Ok (Loc N sizes (fold_right max3 (0, 0, 0)%nat sizes) align tf) /\
    length vs = N /\ length ts = N /\ wf tf /\ t_kind tf = KGeneric /\ get_matrix tf = Ok (map mat_of (combine (combine sizes vs) ts)).
Proof.
  intros E P Hv Ht. destruct (voxel_ok _ _ _ P Hv) as [Ev Lv]. destruct (vectors_ok _ _ _ Ht) as [Et Lt].
  destruct (local_to_world_ok sizes vs ts) as (tf & Etf & W & K & M); [congruence|congruence|]. exists tf. split; [|repeat split; assumption].
  unfold new_locator. destruct sizes as [|s sizes]; [cbn in E; lia|]. rewrite Ev, Et. cbn [rbind]. rewrite Etf. reflexivity.
Qed.
Lemma sizes_below l : Forall (fun s => le3 s (fold_right max3 (0, 0, 0)%nat l)) l.
Proof. apply Forall_forall. intros s Hs. apply fold_max3, Hs. Qed.

Lemma new_repr dens feats voxel trans align v vs ts :
  new_volumes dens feats voxel trans align = Ok v -> voxel_sizes (length (elements dens)) voxel vs -> vectors (length (elements dens)) trans ts ->
  repr v (Batch (elements dens) (option_map elements feats) vs ts align).
Proof.
  intros H Hv Ht. unfold new_volumes in H. destruct (convert dens) as [[t sizes]|e] eqn:E0; [|discriminate]. cbn [rbind] in H. destruct (convert_holds _ _ _ E0) as [Hd ->].
  rewrite (holds_length _ _ Hd) in H. destruct (elements dens) as [|y l] eqn:ED; [discriminate|]. rewrite <- ED in *.
  assert (P : (0 < length (elements dens))%nat) by (rewrite ED; cbn; lia).
  destruct (new_locator_ok (length (elements dens)) (map dims (elements dens)) voxel trans align vs ts) as (tf & E & Lv & Lt & W & K & M); [rewrite map_length; reflexivity|exact P|exact Hv|exact Ht|].
  rewrite E in H. cbn [rbind] in H.
  destruct (match feats with None => Ok None | Some x => y <- checked (map dims (elements dens)) x ;; Ok (Some y) end) as [f|e] eqn:EF; [|discriminate]. cbn [rbind] in H. injection H as <-.
  constructor; cbn; try assumption; try reflexivity.
  - destruct feats as [x|]; [|injection EF as <-; exact I]. destruct (checked _ x) as [y'|] eqn:EC; [|discriminate]. cbn [rbind] in EF. injection EF as <-. apply checked_ok in EC. exact EC.
  - destruct feats as [x|]; [|injection EF as <-; exact I]. destruct (checked _ x) as [y'|] eqn:EC; [|discriminate]. cbn [rbind] in EF. injection EF as <-.
    rewrite (checked_res _ _ _ EC) by (rewrite ED; discriminate). symmetry. apply (convert_res _ _ _ E0). rewrite ED. discriminate.
  - rewrite ED. discriminate.
  - apply sizes_below.
Qed.
Lemma new_total dens feats voxel trans align vs ts :
  good_arg dens -> (forall f, feats = Some f -> fits f (map dims (elements dens))) -> voxel_sizes (length (elements dens)) voxel vs -> vectors (length (elements dens)) trans ts ->
  exists v, new_volumes dens feats voxel trans align = Ok v.
Proof.
  intros G F Hv Ht. unfold new_volumes. destruct (convert_total _ G) as (t & E). rewrite E. cbn [rbind]. apply convert_holds in E. destruct E as [Hd _].
  rewrite (holds_length _ _ Hd). assert (P : (0 < length (elements dens))%nat) by (destruct G as [NE _]; destruct (elements dens); [congruence|cbn; lia]).
  destruct (new_locator_ok (length (elements dens)) (map dims (elements dens)) voxel trans align vs ts) as (tf & E & _); [rewrite map_length; reflexivity|exact P|exact Hv|exact Ht|].
  rewrite E. cbn [rbind]. destruct feats as [f|]; [|eexists; reflexivity]. destruct (checked_total _ _ (F f eq_refl)) as (y & EC). rewrite EC. eexists. reflexivity.
Qed.

Lemma take5_holds t l ix ps l' : holds t l -> chosen (length l) ix ps -> gets ps l l' ->
  exists t', take5 t (norm_ix ix) = Ok t' /\ holds t' l' /\ chans t' = chans t /\ res t' = res t /\ length (items t') = length ps.
Proof.
  intros H C G. pose proof (holds_length _ _ H) as L. rewrite <- L in C. destruct (gets_exists ps (items t)) as (fs & GF); [apply chosen_lt with (ix := ix), C|].
  unfold take5. rewrite (take_index_gets ix ps (items t) fs C GF). cbn [rbind]. eexists. split; [reflexivity|]. split; [|split; [reflexivity|split; [reflexivity|apply (gets_length _ _ _ GF)]]].
  unfold holds in *. cbn [items chans res]. clear C L. revert l' G. induction GF as [|p f ps fs E F IH]; intros l' G; inversion G; subst; constructor; [|apply IH; assumption].
  clear - H E H2. revert p E H2. induction H as [|f0 y0 fs0 l0 P0 F0 IH]; intros [|p] E H2; try discriminate; cbn in *; [injection E as ->; injection H2 as ->; exact P0|eapply IH; eassumption].
Qed.
Lemma vgetitem_repr v a ix a' : repr v a -> selects ix a a' -> a_dens a' <> [] ->
  exists v', vgetitem v (VIndex ix) = Ok v' /\ repr v' (Batch (a_dens a') (a_feats a') (a_voxel a') (a_trans a') true).
Proof.
  intros Rv (ps & C & GD & GV & GT & GF) NE. destruct Rv as [Hd Hf Hsm Hs Hp Lv Lt Hr Hx Ha Hw Hk Hm].
  destruct (take5_holds _ _ ix ps _ Hd C GD) as (d' & Ed & Hd' & _ & Rd & Ld).
  assert (LP : length ps = length (a_dens a')) by (symmetry; apply (gets_length _ _ _ GD)).
  assert (P : (0 < length ps)%nat) by (rewrite LP; destruct (a_dens a'); [congruence|cbn; lia]).
  assert (F : exists f' : option tensor5, (match features v with None => Ok None | Some f => y <- take5 f (norm_ix ix) ;; Ok (Some (ATensor y)) end) = Ok (option_map ATensor f') /\
     match f', a_feats a' with Some t, Some l => holds t l /\ map dims l = map dims (a_dens a') /\ length (items t) = length ps | None, None => True | _, _ => False end /\
     match f', features v with Some t, Some u => res t = res u | _, _ => True end).
  { destruct (features v) as [f|], (a_feats a) as [lf|]; try contradiction.
    - destruct Hf as [Hf Sf]. assert (LF : length lf = length (a_dens a)) by (rewrite <- (map_length dims lf), Sf; apply map_length). destruct (a_feats a') as [lf'|]; [|contradiction].
      destruct (take5_holds _ _ ix ps lf' Hf) as (t' & Et & Ht & _ & Rt & Lt'); [rewrite LF; exact C|exact GF|]. exists (Some t'). rewrite Et. cbn. split; [reflexivity|]. split; [|exact Rt].
      split; [exact Ht|]. split; [|exact Lt']. apply (gets_map dims) in GF. apply (gets_map dims) in GD. rewrite Sf in GF. apply (gets_fun _ _ _ _ GF GD).
    - destruct (a_feats a') as [lf'|]; [contradiction|]. exists None. split; [reflexivity|]. split; exact I. }
  destruct F as (f' & Ef & Hf' & Rf).
  assert (NV : exists v0, new_volumes (ATensor d') (option_map ATensor f') (SNum 1) (SSeq [0; 0; 0]) true = Ok v0 /\ densities v0 = d' /\ features v0 = f' /\ l_res (loc v0) = res d' /\ l_align (loc v0) = true).
  { unfold new_volumes. cbn [convert rbind].
    destruct (new_locator_ok (length (items d')) (repeat (res d') (length (items d'))) (SNum 1) (SSeq [0; 0; 0]) true (repeat (V3 1 1 1) (length (items d'))) (repeat (V3 0 0 0) (length (items d')))) as (tf & E & _); [rewrite repeat_length; reflexivity|lia|apply number|constructor|].
    rewrite E. cbn [rbind].
    destruct f' as [t'|]; cbn [option_map].
    - destruct (features v) as [f|] eqn:EFV; [|discriminate]. destruct (a_feats a') as [lf'|] eqn:EAF; [|contradiction]. destruct Hf' as (Ht' & Sd & Lt').
      unfold checked. cbn [convert rbind fst snd]. destruct (sizes_eqb_spec (repeat (res d') (length (items d'))) (repeat (res t') (length (items t')))) as [_|N].
      + cbn [rbind]. eexists. split; [reflexivity|]. cbn. rewrite max3_repeat by lia. repeat split.
      + exfalso. apply N. rewrite Lt', Ld, Rf, Hsm, Rd. reflexivity.
    - cbn [rbind]. eexists. split; [reflexivity|]. cbn. rewrite max3_repeat by lia. repeat split. }
  destruct NV as (v0 & Ev0 & Dv & Fv & Rv & Av).
  assert (GS : gets ps (get_grid_sizes v) (map dims (a_dens a'))) by (rewrite Hs; apply gets_map, GD).
  assert (GM : gets ps (map mat_of (frames a)) (map mat_of (frames a'))) by (apply gets_map, gets_combine; [apply gets_combine; [apply gets_map, GD|exact GV]|exact GT]).
  assert (LM : length (map mat_of (frames a)) = length (a_dens a)) by (unfold frames; rewrite map_length, !combine_length, map_length; lia).
  assert (TI : take_index (map mat_of (frames a)) (norm_ix ix) = Ok (map mat_of (frames a'))) by (apply take_index_gets with (ps := ps); [rewrite LM; exact C|exact GM]).
  assert (EU : exists u, getitem (l_tf (loc v)) (norm_ix ix) = Ok u /\ wf u /\ t_kind u = KGeneric /\ get_matrix u = Ok (map mat_of (frames a'))).
  { unfold getitem. rewrite Hm. cbn [rbind]. rewrite TI. cbn [rbind]. rewrite Hk. eexists. split; [reflexivity|]. split; [apply wf_generic; constructor|]. split; reflexivity. }
  destruct EU as (u & Eu & Wu & Ku & Mu).
  exists (Vol d' f' (Loc (l_batch (loc v0)) (map dims (a_dens a')) (res d') true u)). split.
  - cbn [vgetitem]. fold (norm_ix ix). rewrite Ef. cbn [rbind]. rewrite Ed. cbn [rbind]. rewrite Ev0. cbn [rbind].
    rewrite (take_index_gets ix ps (get_grid_sizes v) (map dims (a_dens a'))); [|rewrite Hs, map_length; exact C|exact GS]. cbn [rbind]. rewrite Eu. cbn [rbind]. rewrite Dv, Fv, Rv, Av. reflexivity.
  - constructor; cbn; try assumption; try reflexivity.
    + destruct f' as [t'|], (a_feats a') as [lf'|]; try contradiction; [|exact I]. destruct Hf' as (A & B & _). split; assumption.
    + destruct f' as [t'|]; [|exact I]. destruct (features v) as [f|]; [|discriminate]. rewrite Rf, Hsm, Rd. reflexivity.
    + rewrite (gets_length _ _ _ GV). exact LP.
    + rewrite (gets_length _ _ _ GT). exact LP.
    + apply Forall_forall. intros s Hin. apply in_map_iff in Hin. destruct Hin as (y & <- & Hy). unfold holds in Hd'. clear - Hd' Hy. induction Hd' as [|f y0 fs l (_ & L & _) F IH]; [destruct Hy|]. destruct Hy as [->|Hy]; [exact L|apply IH, Hy].
    + discriminate.
Qed.
