(* The two implementations compute the same lists of links and triangles. *)
From Verif Require Import Base RBase Geom MarchingTables Marching MarchingSpec MarchingProofs MarchingProofs2.
From Verif Require Text TextProofs.
Local Open Scope nat_scope.

Lemma link_eq_dec (e e' : link) : {e = e'} + {e <> e'}.
Proof. repeat decide equality. Defined.
Definition leqb (e e' : link) : bool := if link_eq_dec e e' then true else false.
Lemma leqb_ok e e' : leqb e e' = true <-> e = e'.
Proof. unfold leqb. destruct (link_eq_dec e e'); split; intros; try assumption; try reflexivity; try discriminate; contradiction. Qed.

Lemma interp_py D H W f iso e : linkG D H W e -> vert_interp (sample D H W f) iso (near e, far e) = Ok (snapped f iso e).
Proof.
  intros (G1 & G2). unfold vert_interp, snapped. cbn [fst snd]. rewrite !sample_get by assumption. cbn [rbind]. repeat (match goal with |- context [if ?b then _ else _] => destruct b end; try reflexivity).
Qed.
Lemma interp_cpp D H W f iso e : linkG D H W e -> VertexInterp (sample D H W f) iso (near e, far e) = Ok (snapped f iso e).
Proof.
  intros (G1 & G2). unfold VertexInterp, snapped. cbn [fst snd]. rewrite !sample_get by assumption. cbn [rbind]. repeat (match goal with |- context [if ?b then _ else _] => destruct b end; try reflexivity).
  f_equal. unfold cut, along. destruct (pos_of (near e)) as [a b c], (pos_of (far e)) as [a' b' c']. unfold add3, scal3, sub3. cbn. f_equal; ring.
Qed.

(* ---- the ids of grid points ---- *)
Lemma radix W a b q r : a < W -> b < W -> a + q * W = b + r * W -> a = b /\ q = r.
Proof. intros Ha Hb E. assert (Eq : q = r) by (destruct (Nat.lt_trichotomy q r) as [L|[L|L]]; [|exact L|]; exfalso; nia). split; [subst; lia|exact Eq]. Qed.
Lemma point_id_inj D H W p q : in_grid D H W p -> in_grid D H W q -> point_id W H p = point_id W H q -> p = q.
Proof.
  destruct p as [[x y] z], q as [[x' y'] z']. cbn. intros (Hx & Hy & Hz) (Hx' & Hy' & Hz') E.
  assert (E' : x + (y + z * H) * W = x' + (y' + z' * H) * W) by nia. apply radix in E' as (-> & E'); [|assumption..]. apply radix in E' as (-> & ->); [reflexivity|assumption..].
Qed.
Lemma point_id_lt D H W p : in_grid D H W p -> point_id W H p < W * H * D.
Proof. destruct p as [[x y] z]. cbn. intros (Hx & Hy & Hz). assert (y * W + x < H * W) by nia. assert (W * H * z + W * H <= W * H * D) by nia. nia. Qed.
Lemma link_ends (e e' : link) : near e = near e' -> far e = far e' -> e = e'.
Proof. destruct e as [[[x y] z] a], e' as [[[x' y'] z'] a']. unfold near, far. cbn [fst snd]. intros E. injection E as -> -> ->. destruct a, a'; cbn; intros E; try reflexivity; exfalso; injection E; lia. Qed.
Definition pkey (H W : nat) (e : link) : nat * nat := (point_id W H (near e), point_id W H (far e)).
Lemma pkey_inj D H W e e' : linkG D H W e -> linkG D H W e' -> pair_eqb (pkey H W e) (pkey H W e') = leqb e e'.
Proof.
  intros (G1 & G2) (G1' & G2'). destruct (leqb e e') eqn:E.
  - apply leqb_ok in E. subst. unfold pair_eqb. now rewrite !Nat.eqb_refl.
  - unfold pair_eqb, pkey. cbn [fst snd]. destruct (Nat.eqb_spec (point_id W H (near e)) (point_id W H (near e'))) as [E1|]; [|reflexivity]. destruct (Nat.eqb_spec (point_id W H (far e)) (point_id W H (far e'))) as [E2|]; [|reflexivity]. apply point_id_inj with (D := D) in E1, E2; try assumption. rewrite (proj2 (leqb_ok e e')) in E; [discriminate|]. now apply link_ends.
Qed.
Local Open Scope Z_scope.
Lemma f32_id z : 0 <= z < 2 ^ 24 -> f32 z = z.
Proof. intros H. apply TextProofs.fround_small. lia. Qed.
Lemma i32_id z : 0 <= z < 2 ^ 31 -> i32 z = z.
Proof. intros H. unfold i32. rewrite Z.mod_small; lia. Qed.
Lemma point_id_f32_ok D H W p : Z.of_nat W * Z.of_nat H * Z.of_nat D <= 2 ^ 24 -> in_grid D H W p -> point_id_f32 (Z.of_nat W) (Z.of_nat H) p = Z.of_nat (point_id W H p).
Proof.
  intros HV Hp. pose proof (point_id_lt D H W p Hp) as Hl. destruct p as [[x y] z]. destruct Hp as (Hx & Hy & Hz). unfold point_id_f32, point_id in *.
  assert (B : Z.of_nat (x + y * W + z * W * H) < 2 ^ 24) by nia. rewrite !Nat2Z.inj_add, !Nat2Z.inj_mul in B |- *.
  assert (0 <= Z.of_nat z * Z.of_nat W) by nia. assert (0 <= Z.of_nat z * Z.of_nat W * Z.of_nat H) by nia. assert (0 <= Z.of_nat y * Z.of_nat W) by nia. assert (Z.of_nat y <= Z.of_nat y * Z.of_nat W) by nia. assert (Z.of_nat z <= Z.of_nat z * Z.of_nat W) by nia. assert (Z.of_nat z * Z.of_nat W <= Z.of_nat z * Z.of_nat W * Z.of_nat H) by nia.
  rewrite (f32_id (Z.of_nat x)) by lia. rewrite (f32_id (Z.of_nat y)) by lia. rewrite (f32_id (Z.of_nat z)) by lia. rewrite (f32_id (Z.of_nat y * Z.of_nat W)) by lia. rewrite (f32_id (Z.of_nat z * Z.of_nat W)) by lia. rewrite (f32_id (Z.of_nat z * Z.of_nat W * Z.of_nat H)) by lia. rewrite (f32_id (Z.of_nat x + Z.of_nat y * Z.of_nat W)) by lia. apply f32_id. lia.
Qed.
Definition hkey (D H W : nat) (e : link) : Z := HashVpair (Z.of_nat W) (Z.of_nat H) (Z.of_nat D) (near e, far e).
Lemma hkey_ok D H W e : Z.of_nat W * Z.of_nat H * Z.of_nat D <= 2 ^ 24 -> linkG D H W e ->
  hkey D H W e = Z.of_nat (point_id W H (near e)) * (Z.of_nat W + Z.of_nat W * Z.of_nat H + Z.of_nat W * Z.of_nat H * Z.of_nat D) + Z.of_nat (point_id W H (far e)).
Proof.
  intros HV (G1 & G2). unfold hkey, HashVpair. cbn [fst snd]. rewrite (point_id_f32_ok D H W (near e)), (point_id_f32_ok D H W (far e)) by assumption.
  pose proof (point_id_lt D H W _ G1) as L1. pose proof (point_id_lt D H W _ G2) as L2.
  assert (D1 : (0 < D /\ 0 < H /\ 0 < W)%nat) by (destruct (near e) as [[x y] z]; cbn in G1; lia).
  assert (L1' : Z.of_nat (point_id W H (near e)) < Z.of_nat W * Z.of_nat H * Z.of_nat D) by (rewrite <- !Nat2Z.inj_mul; lia). assert (L2' : Z.of_nat (point_id W H (far e)) < Z.of_nat W * Z.of_nat H * Z.of_nat D) by (rewrite <- !Nat2Z.inj_mul; lia).
  assert (A1 : Z.of_nat W <= Z.of_nat W * Z.of_nat H) by nia. assert (A2 : Z.of_nat W * Z.of_nat H <= Z.of_nat W * Z.of_nat H * Z.of_nat D) by nia.
  rewrite !i32_id by lia. reflexivity.
Qed.
Lemma hkey_inj D H W e e' : Z.of_nat W * Z.of_nat H * Z.of_nat D <= 2 ^ 24 -> linkG D H W e -> linkG D H W e' -> Z.eqb (hkey D H W e) (hkey D H W e') = leqb e e'.
Proof.
  intros HV G G'. destruct (leqb e e') eqn:E; [apply leqb_ok in E; subst; apply Z.eqb_refl|]. apply Z.eqb_neq. intros C. rewrite !hkey_ok in C by assumption.
  destruct G as (G1 & G2), G' as (G1' & G2'). pose proof (point_id_lt D H W _ G2) as L2. pose proof (point_id_lt D H W _ G2') as L2'.
  assert (N : (point_id W H (far e) + point_id W H (near e) * (W + W * H + W * H * D) = point_id W H (far e') + point_id W H (near e') * (W + W * H + W * H * D))%nat) by lia.
  apply radix in N as (N1 & N2); [|lia..]. apply point_id_inj with (D := D) in N1, N2; try assumption. rewrite (proj2 (leqb_ok e e')) in E; [discriminate|]. now apply link_ends.
Qed.
Local Open Scope nat_scope.

(* ---- C++ ---- *)
Lemma tables_equal : cpp_EDGE_TO_VERTICES = EDGE_TO_VERTICES /\ cpp_INDEX_TABLE = INDEX /\ rmap row_upto_X cpp_FACE_TABLE = Ok FACE_TABLE.
Proof. vm_compute. repeat split. Qed.
Lemma rmap_nth {A B} (g : A -> result B) l l' i b : rmap g l = Ok l' -> nth_error l' i = Some b -> exists a, nth_error l i = Some a /\ g a = Ok b.
Proof.
  revert l' i. induction l as [|a l IH]; intros l' i E Hi; cbn in E; [injection E as <-; destruct i; discriminate|]. destruct (g a) as [b0|] eqn:Eg; [|discriminate]. cbn in E. destruct (rmap g l) as [l0|] eqn:El; [|discriminate]. cbn in E. injection E as <-. destruct i as [|i]; cbn in *; [injection Hi as <-; eauto|]. eapply IH; eauto.
Qed.
Lemma cpp_row bs : length bs = 8 -> exists r, rget cpp_FACE_TABLE (cfg bs) = Ok r /\ row_upto_X r = Ok (row bs).
Proof.
  intros H. pose proof (row_get bs H) as E. apply rget_some in E. destruct tables_equal as (_ & _ & T). destruct (rmap_nth _ _ _ _ _ T E) as (r & E1 & E2). exists r. split; [|exact E2]. now apply rget_some.
Qed.
Lemma rmap_all {A B} (g : A -> result B) (h : A -> B) l : (forall a, In a l -> g a = Ok (h a)) -> rmap g l = Ok (map h l).
Proof. induction l as [|a l IH]; intros H; [reflexivity|]. cbn. rewrite (H a (or_introl eq_refl)). cbn. rewrite IH by (intros; apply H; now right). reflexivity. Qed.

Section Run.
Variables (D H W : nat) (f : field) (iso : R).
Definition all_rows : list (list link) := map (links_of f iso) (cubes D H W).
Definition pos (e : link) : vec3 := snapped f iso e.
Definition tris (differ : vec3 -> vec3 -> bool) : list (link * link * link) := flat_map (stored differ pos) all_rows.
Definition used (differ : vec3 -> vec3 -> bool) : list link := nub leqb (flat_map list3 (tris differ)).
Lemma rows_G : Forall (fun r => Forall (linkG D H W) r /\ exists m, length r = 3 * m) all_rows.
Proof.
  apply Forall_forall. intros r Hr. apply in_map_iff in Hr as (c & <- & Hc). split.
  - apply Forall_forall. intros e He. apply (links_cross D H W) in He; [|exact Hc]. destruct He as (G1 & G2 & _). now split.
  - unfold links_of. rewrite map_length. apply row_facts, bits_len.
Qed.
Lemma cpp_cube_ok s c : In c (cubes D H W) -> cpp_cube (sample D H W f) D H W iso s c = add_cube Z.eqb differ_cpp s (map (ent (hkey D H W) pos) (links_of f iso c)).
Proof.
  intros Hc. unfold cpp_cube. destruct tables_equal as (T1 & T2 & _). rewrite T2, (cube_index_ok D H W) by exact Hc. cbn [rbind]. destruct (cpp_row (bits f iso c) (bits_len f iso c)) as (r & E1 & E2). rewrite E1. cbn [rbind]. rewrite E2. cbn [rbind].
  rewrite (rmap_all _ (fun a => ent (hkey D H W) pos (glob c a))).
  - cbn [rbind]. unfold links_of. now rewrite map_map.
  - intros a Ha. apply row_facts in Ha as [Ha _]; [|apply bits_len]. rewrite T1, ends_ok by exact Ha. cbn [rbind]. rewrite interp_cpp by (apply glob_grid; assumption). reflexivity.
Qed.
Lemma rfold_map {S A B} (g : S -> B -> result S) (h : A -> B) l : forall s, rfold g (map h l) s = rfold (fun s a => g s (h a)) l s.
Proof. induction l as [|a l IH]; intros s; [reflexivity|]. cbn. destruct (g s (h a)); [apply IH|reflexivity]. Qed.
Lemma rfold_ext_in {S A} (g h : S -> A -> result S) l : (forall s a, In a l -> g s a = h s a) -> forall s, rfold g l s = rfold h l s.
Proof. induction l as [|a l IH]; intros E s; [reflexivity|]. cbn. rewrite (E s a (or_introl eq_refl)). destruct (h s a); [cbn|reflexivity]. apply IH. intros; apply E; now right. Qed.
Theorem cpp_run : (Z.of_nat W * Z.of_nat H * Z.of_nat D <= 2 ^ 24)%Z ->
  MarchingCubesCpu (sample D H W f) D H W iso = Ok (map pos (used differ_cpp), map (idx3 leqb (used differ_cpp)) (tris differ_cpp)).
Proof.
  intros HV. unfold MarchingCubesCpu. rewrite (rfold_ext_in _ _ _ cpp_cube_ok). rewrite <- (rfold_map (fun s r => add_cube Z.eqb differ_cpp s (map (ent (hkey D H W) pos) r)) (links_of f iso)).
  change (MS [] [] []) with (state_of leqb (hkey D H W) pos [] []). fold all_rows. rewrite (add_cubes leqb leqb_ok Z.eqb (hkey D H W) (linkG D H W)).
  - reflexivity.
  - intros e e' He He'. now apply hkey_inj.
  - exact rows_G.
  - constructor.
  - constructor.
Qed.

(* ---- Python ---- *)
Let pd := dict (pkey H W).
Lemma setdefault_ok s e : linkG D H W e -> Forall (linkG D H W) s -> setdefault (pd s) (pkey H W e) = (pd (ins leqb s e), index_of leqb e (ins leqb s e)).
Proof.
  intros He Hs. unfold setdefault, pd. rewrite (lookup_dict leqb leqb_ok pair_eqb (pkey H W) (linkG D H W)); [|intros; now apply (pkey_inj D)|exact He|exact Hs].
  unfold ins. destruct (mem leqb e s) eqn:E; [reflexivity|]. rewrite dict_snoc, (index_new leqb leqb_ok) by (intros C; apply (mem_in leqb leqb_ok) in C; congruence). unfold dict. rewrite combine_length, map_length, seq_length, Nat.min_id. reflexivity.
Qed.
Variable ALL : list link.
Let key (e : link) := index_of leqb e ALL.
Lemma row_py c : In c (cubes D H W) -> forall es, (forall a, In a es -> a < 12) -> forall s acc, Forall (linkG D H W) s -> (exists r, ALL = fold_left (ins leqb) (map (glob c) es) s ++ r) ->
  rfold (fun dl e => pp <- ends EDGE_TO_VERTICES c e ;; p <- vert_interp (sample D H W f) iso pp ;;
      let '(d, i) := setdefault (fst dl) (point_id W H (fst pp), point_id W H (snd pp)) in Ok (d, snd dl ++ [(i, p)])) es (pd s, acc)
  = Ok (pd (fold_left (ins leqb) (map (glob c) es) s), acc ++ map (ent key pos) (map (glob c) es)).
Proof.
  intros Hc. induction es as [|a es IH]; intros Ha s acc Hs HA; [cbn; now rewrite app_nil_r|]. cbn [rfold map fold_left]. pose proof (Ha a (or_introl eq_refl)) as Ha0. rewrite ends_ok by exact Ha0. cbn [rbind]. pose proof (glob_grid D H W c a Hc Ha0) as Hg. rewrite interp_py by exact Hg. cbn [rbind fst snd].
  change (point_id W H (near (glob c a)), point_id W H (far (glob c a))) with (pkey H W (glob c a)). rewrite setdefault_ok by assumption. cbn [rbind].
  rewrite IH.
  - rewrite <- app_assoc. cbn [app]. do 4 f_equal. unfold ent, key, pos. f_equal. destruct HA as (r & HA). cbn [map fold_left] in HA. destruct (fold_prefix leqb (map (glob c) es) (ins leqb s (glob c a))) as (r' & Er). rewrite HA, Er, <- app_assoc. symmetry. apply (index_app leqb leqb_ok), (ins_in leqb leqb_ok). now right.
  - intros b Hb. apply Ha. now right.
  - now apply (ins_G leqb leqb_ok).
  - exact HA.
Qed.
Lemma naive_cubes cs : (forall c, In c cs -> In c (cubes D H W)) -> forall s st, Forall (linkG D H W) s -> (exists r, ALL = fold_left (ins leqb) (flat_map (links_of f iso) cs) s ++ r) ->
  rfold (naive_cube (sample D H W f) H W iso) cs (pd s, st) =
  (st' <- rfold (fun st r => add_cube Nat.eqb differ_py st (map (ent key pos) r)) (map (links_of f iso) cs) st ;; Ok (pd (fold_left (ins leqb) (flat_map (links_of f iso) cs) s), st')).
Proof.
  induction cs as [|c cs IH]; intros Hc s st Hs HA; [reflexivity|]. cbn [rfold map flat_map]. pose proof (Hc c (or_introl eq_refl)) as Hc0. unfold naive_cube at 1. rewrite (cube_index_ok D H W) by exact Hc0. cbn [rbind]. rewrite row_get by apply bits_len. cbn [rbind fst snd].
  cbn [flat_map] in HA. rewrite fold_left_app in HA |- *. assert (Hlt : forall a, In a (row (bits f iso c)) -> a < 12) by (intros a Ha; apply row_facts in Ha as [Ha _]; [exact Ha|apply bits_len]).
  rewrite (row_py c Hc0 _ Hlt) with (acc := []); [|exact Hs|]; cycle 1.
  { destruct HA as (r & ->). destruct (fold_prefix leqb (flat_map (links_of f iso) cs) (fold_left (ins leqb) (links_of f iso c) s)) as (r' & ->). exists (r' ++ r). unfold links_of. now rewrite app_assoc. }
  cbn [rbind fst snd app]. fold (links_of f iso c). destruct (add_cube Nat.eqb differ_py st (map (ent key pos) (links_of f iso c))) as [st'|]; [|reflexivity]. cbn [rbind]. apply IH.
  - intros c' Hc'. apply Hc. now right.
  - apply (fold_G leqb leqb_ok); [|exact Hs]. apply Forall_forall. intros e He. apply in_map_iff in He as (a & <- & Ha). apply glob_grid; auto.
  - exact HA.
Qed.
End Run.
Theorem py_run D H W f iso : naive (sample D H W f) D H W iso = Ok (map (pos f iso) (used D H W f iso differ_py), map (idx3 leqb (used D H W f iso differ_py)) (tris D H W f iso differ_py)).
Proof.
  unfold naive. change (@nil (nat * nat * nat), @MS nat [] [] []) with (dict (pkey H W) [], @MS nat [] [] []).
  rewrite (naive_cubes D H W f iso (nub leqb (flat_map (links_of f iso) (cubes D H W))) (cubes D H W)); [|auto|constructor|exists []; now rewrite app_nil_r].
  set (ALL := nub leqb (flat_map (links_of f iso) (cubes D H W))).
  change (MS [] [] []) with (state_of leqb (fun e => index_of leqb e ALL) (pos f iso) [] []). fold (all_rows D H W f iso). rewrite (add_cubes leqb leqb_ok Nat.eqb (fun e => index_of leqb e ALL) (fun e => In e ALL)).
  - reflexivity.
  - intros e e' He He'. destruct (leqb e e') eqn:E; [apply leqb_ok in E; subst; apply Nat.eqb_refl|]. apply Nat.eqb_neq. intros C. apply (index_inj leqb leqb_ok) in C; [|assumption..]. subst. rewrite (proj2 (leqb_ok e' e') eq_refl) in E. discriminate.
  - apply Forall_forall. intros r Hr. pose proof (rows_G D H W f iso) as R. rewrite Forall_forall in R. destruct (R r Hr) as (_ & R2). split; [|exact R2]. apply Forall_forall. intros e He. apply (nub_in leqb leqb_ok). apply in_map_iff in Hr as (c & <- & Hc). apply in_flat_map. eauto.
  - constructor.
  - constructor.
Qed.
