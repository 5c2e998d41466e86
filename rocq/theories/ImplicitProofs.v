From Verif Require Import Base RBase Implicit ImplicitSpec.
Local Open Scope R_scope.

(* ------------------------------------------------------------------ scans *)
Lemma rscan_mult x : forall a, rscan Rmult a x = map (fun k => a * rprod (firstn (S k) x)) (seq 0 (length x)).
Proof.
  induction x as [|y x IH]; intros a; [reflexivity|]. cbn [rscan length seq map]. f_equal.
  - cbn. ring.
  - rewrite IH, <- seq_shift, map_map. apply map_ext. intros k. cbn [firstn rprod fold_right]. fold (rprod (firstn k x)).
    destruct x as [|z x']; cbn [firstn rprod fold_right]; ring.
Qed.
Lemma rscan_plus x : forall a, rscan Rplus a x = map (fun k => a + rsum (firstn (S k) x)) (seq 0 (length x)).
Proof.
  induction x as [|y x IH]; intros a; [reflexivity|]. cbn [rscan length seq map]. f_equal.
  - cbn. ring.
  - rewrite IH, <- seq_shift, map_map. apply map_ext. intros k. cbn [firstn]. rewrite !rsum_cons. destruct x as [|z x']; cbn [firstn]; rewrite ?rsum_cons, ?rsum_nil; ring.
Qed.
Lemma rscan_length op x : forall a, length (rscan op a x) = length x.
Proof. induction x as [|y x IH]; intros a; cbn; [reflexivity|]. rewrite IH. reflexivity. Qed.
Lemma rev_last {A} (l : list A) x r d : rev l = x :: r -> last l d = x.
Proof. intros E. rewrite <- (rev_involutive l), E. cbn. apply last_last. Qed.
Lemma rsum_firstn_S l k : (k < length l)%nat -> rsum (firstn (S k) l) = rsum (firstn k l) + nth k l 0.
Proof.
  revert k. induction l as [|a l IH]; intros k H; [cbn in H; lia|]. destruct k; [cbn; ring|]. cbn [length] in H.
  change (firstn (S (S k)) (a :: l)) with (a :: firstn (S k) l). change (firstn (S k) (a :: l)) with (a :: firstn k l).
  rewrite !rsum_cons, IH by lia. cbn [nth]. ring.
Qed.
Lemma rprod_firstn_S l k : (k < length l)%nat -> rprod (firstn (S k) l) = rprod (firstn k l) * nth k l 0.
Proof.
  revert k. induction l as [|a l IH]; intros k H; [cbn in H; lia|]. destruct k; [cbn; ring|]. cbn [length] in H.
  change (firstn (S (S k)) (a :: l)) with (a :: firstn (S k) l). change (firstn (S k) (a :: l)) with (a :: firstn k l).
  cbn [rprod fold_right]. fold (rprod (firstn (S k) l)). fold (rprod (firstn k l)). rewrite IH by lia. cbn [nth]. ring.
Qed.
Lemma rprod_unit01 l : (forall x, In x l -> 0 <= x <= 1) -> 0 <= rprod l <= 1.
Proof.
  induction l as [|a l IH]; intros H; cbn; [lra|]. assert (Ha := H a (or_introl eq_refl)).
  specialize (IH (fun y Hy => H y (or_intror Hy))). unfold rprod in IH. nra.
Qed.
Lemma rprod_nonneg l : (forall x, In x l -> 0 <= x) -> 0 <= rprod l.
Proof.
  induction l as [|a l IH]; intros H; cbn; [lra|]. assert (Ha := H a (or_introl eq_refl)).
  specialize (IH (fun y Hy => H y (or_intror Hy))). unfold rprod in IH. nra.
Qed.
Lemma combine_nth_map {C} (h : R -> R -> C) a b : length a = length b ->
  map (fun p => h (fst p) (snd p)) (combine a b) = map (fun k => h (nth k a 0) (nth k b 0)) (seq 0 (length a)).
Proof.
  revert b. induction a as [|x a IH]; intros [|y b] H; try discriminate; [reflexivity|]. cbn [combine map length seq]. f_equal.
  rewrite IH by (cbn in H; lia). rewrite <- seq_shift, map_map. reflexivity.
Qed.
Lemma bmul_eq a b : length a = length b -> bmul a b = Ok (map (fun k => nth k a 0 * nth k b 0) (seq 0 (length a))).
Proof. intros H. unfold bmul. rewrite H, Nat.eqb_refl. rewrite (combine_nth_map Rmult a b H), H. reflexivity. Qed.
Lemma nth_map_seq (g : nat -> R) n k : (k < n)%nat -> nth k (map g (seq 0 n)) 0 = g k.
Proof. intros H. rewrite (nth_indep _ 0 (g 0%nat)) by (rewrite map_length, seq_length; exact H). rewrite map_nth, seq_nth by exact H. reflexivity. Qed.
Lemma nth_firstn_lt {A} (l : list A) n k d : (k < n)%nat -> nth k (firstn n l) d = nth k l d.
Proof. revert n k. induction l as [|a l IH]; intros [|n] [|k] H; cbn; try lia; try reflexivity. apply IH. lia. Qed.
Lemma nth_skipn' {A} (l : list A) n k d : nth k (skipn n l) d = nth (n + k) l d.
Proof. revert n. induction l as [|a l IH]; intros [|n]; cbn; try reflexivity; [destruct k; reflexivity|]. apply IH. Qed.

Lemma nth_const {A} (l : list A) v k d : (k < length l)%nat -> nth k (map (fun _ => v) l) d = (v : R).
Proof. revert k. induction l as [|a l IH]; intros [|k] H; cbn in *; try lia; [reflexivity|]. apply IH. lia. Qed.

(* ------------------------------------------------------------------ emission-absorption *)
Lemma shifted_eq s x : (0 < s)%nat ->
  shifted_cumprod (Z.of_nat s) x = map (fun k => rprod (firstn (k + 1 - s) x)) (seq 0 (length x)).
Proof.
  intros Hs. unfold shifted_cumprod, py_to. rewrite rscan_length.
  destruct (Z.ltb_spec (Z.of_nat s) 0); [lia|]. destruct (Z.ltb_spec (- Z.of_nat s) 0); [|lia]. rewrite Nat2Z.id.
  replace (Z.to_nat (Z.of_nat (length x) + - Z.of_nat s)) with (length x - s)%nat by lia.
  apply (nth_ext _ _ 0 0).
  - rewrite app_length, !map_length, !firstn_length, rscan_length, seq_length. lia.
  - intros k Hk. rewrite app_length, map_length, !firstn_length, rscan_length in Hk.
    rewrite nth_map_seq by lia. destruct (Nat.lt_ge_cases k s) as [L|L].
    + rewrite app_nth1 by (rewrite map_length, firstn_length, rscan_length; lia).
      replace (k + 1 - s)%nat with 0%nat by lia. cbn [firstn rprod fold_right].
      apply nth_const. rewrite firstn_length, rscan_length. lia.
    + rewrite app_nth2 by (rewrite map_length, firstn_length, rscan_length; lia). rewrite map_length, firstn_length, rscan_length.
      replace (Nat.min s (length x)) with s by lia. rewrite nth_firstn_lt by lia. rewrite rscan_mult, nth_map_seq by lia.
      replace (S (k - s)) with (k + 1 - s)%nat by lia. ring.
Qed.
Lemma ea_eq s eps dens feats : (0 < s)%nat -> length feats = length dens ->
  ea_raymarch (Z.of_nat s) eps dens feats =
  Ok (map (ea_weight s eps dens) (seq 0 (length dens)), sumf (length dens) (fun k => ea_weight s eps dens k * nth k feats 0),
      1 - rprod (map (fun d => 1 - d) dens)).
Proof.
  intros Hs HL. unfold ea_raymarch. rewrite HL, Nat.eqb_refl. cbn [negb].
  rewrite shifted_eq by exact Hs. rewrite map_length. rewrite bmul_eq by (rewrite map_length, seq_length; reflexivity). cbn [rbind].
  assert (E : map (fun k => nth k dens 0 * nth k (map (fun k0 => rprod (firstn (k0 + 1 - s) (map (fun d => 1 + eps - d) dens))) (seq 0 (length dens))) 0) (seq 0 (length dens))
              = map (ea_weight s eps dens) (seq 0 (length dens))).
  { apply map_ext_in. intros k Hk. apply in_seq in Hk. rewrite nth_map_seq by lia. unfold ea_weight, prod_first. rewrite firstn_map. reflexivity. }
  rewrite E. rewrite bmul_eq by (rewrite map_length, seq_length; lia). cbn [rbind]. rewrite map_length, seq_length.
  unfold sumf. do 3 f_equal. f_equal. apply map_ext_in. intros k Hk. apply in_seq in Hk. rewrite nth_map_seq by lia. reflexivity.
Qed.
Lemma prod_first_S g l k : (k < length l)%nat -> prod_first (S k) g l = prod_first k g l * g (nth k l 0).
Proof.
  intros H. unfold prod_first. rewrite <- !firstn_map. rewrite rprod_firstn_S by (rewrite map_length; exact H).
  rewrite (nth_indep _ 0 (g 0)) by (rewrite map_length; exact H). rewrite map_nth. reflexivity.
Qed.
Lemma prod_first_all g l : prod_first (length l) g l = rprod (map g l).
Proof. unfold prod_first. rewrite firstn_all. reflexivity. Qed.
Lemma ea_telescope eps dens n : (n <= length dens)%nat ->
  sumf n (ea_weight 1 eps dens) = 1 - prod_first n (fun d => 1 + eps - d) dens + eps * sumf n (fun k => prod_first k (fun d => 1 + eps - d) dens).
Proof.
  induction n as [|n IH]; intros H; [rewrite !sumf_0; cbn; ring|]. rewrite !sumf_S, IH by lia.
  rewrite prod_first_S by lia. unfold ea_weight. replace (n + 1 - 1)%nat with n by lia. ring.
Qed.
Lemma prod_first_nonneg k g l : (forall x, In x l -> 0 <= g x) -> 0 <= prod_first k g l.
Proof.
  intros H. apply rprod_nonneg. intros x Hx. apply in_map_iff in Hx as [y [<- Hy]]. apply H.
  rewrite <- (firstn_skipn k l). apply in_or_app. left. exact Hy.
Qed.
Lemma ea_weight_nonneg s eps dens k : 0 <= eps -> all_in 0 1 dens -> 0 <= ea_weight s eps dens k.
Proof.
  intros He Hd. unfold ea_weight. apply Rmult_le_pos.
  - destruct (nth_in_or_default k dens 0) as [Hi|Hi]; [apply (Hd _ Hi)|rewrite Hi; lra].
  - apply prod_first_nonneg. intros x Hx. specialize (Hd x Hx). lra.
Qed.
Lemma opacity_range dens : all_in 0 1 dens -> 0 <= 1 - rprod (map (fun d => 1 - d) dens) <= 1.
Proof.
  intros H. assert (K := rprod_unit01 (map (fun d => 1 - d) dens)). destruct K; [|lra]. intros x Hx. apply in_map_iff in Hx as [y [<- Hy]]. specialize (H y Hy). lra.
Qed.

(* ------------------------------------------------------------------ accumulative raymarchers *)
Lemma rev_map_seq_last {A} (g : nat -> A) n : rev (map g (seq 0 (S n))) = g n :: rev (map g (seq 0 n)).
Proof. rewrite seq_S, map_app, rev_app_distr. reflexivity. Qed.
Lemma cap_0 c : cap c 0 = 0.
Proof. destruct c; cbn; [rewrite Ropp_0, exp_0; lra|rewrite Rmin_left; lra]. Qed.
Lemma cap_step c w S x : pairing c w -> 0 <= S -> 0 <= x -> wfun w (cap c x) (1 - cap c S) = cap c (S + x) - cap c S.
Proof.
  intros [[-> ->]|[-> ->]] HS Hx; cbn.
  - replace (- (S + x)) with (- S + - x) by ring. rewrite exp_plus. ring.
  - unfold Rmin. repeat destruct Rle_dec; lra.
Qed.
Lemma cap_mono c a b : a <= b -> cap c a <= cap c b.
Proof.
  intros H. destruct c; cbn.
  - destruct (Req_dec a b) as [->|]; [lra|]. assert (exp (- b) < exp (- a)) by (apply exp_increasing; lra). lra.
  - unfold Rmin. repeat destruct Rle_dec; lra.
Qed.
Lemma cap_le1 c a : cap c a <= 1.
Proof. destruct c; cbn; [assert (H := exp_pos (- a)); lra|apply Rmin_r]. Qed.
Lemma roll_1 {A} (l : list A) d : l <> [] -> roll 1 l = last l d :: removelast l.
Proof.
  intros H. destruct l as [|x l]; [contradiction|]. unfold roll. cbn [length].
  destruct l as [|y l]; [reflexivity|].
  replace (1 mod S (length (y :: l)))%nat with 1%nat by (symmetry; apply Nat.mod_small; cbn [length]; lia).
  replace (S (length (y :: l)) - 1)%nat with (length (y :: l)) by lia.
  rewrite (app_removelast_last d H) at 1 2.
  assert (L : length (removelast (x :: y :: l)) = length (y :: l)).
  { assert (E := f_equal (@length A) (app_removelast_last d H)). rewrite app_length in E. cbn [length] in *. lia. }
  rewrite skipn_app, firstn_app, L, Nat.sub_diag. rewrite skipn_all2 by lia. rewrite firstn_all2 by lia. cbn [skipn firstn app].
  rewrite app_nil_r. reflexivity.
Qed.
Lemma removelast_map_seq (g : nat -> R) n : removelast (map g (seq 0 (S n))) = map g (seq 0 n).
Proof. rewrite seq_S, map_app. cbn [map]. apply removelast_last. Qed.
Section Acc.
  Variables (c : cap_fn) (w : weight_fn) (x : list R).
  Hypothesis P : pairing c w.
  Hypothesis Hx : forall y, In y x -> 0 <= y.
  Let S' (k : nat) := rsum (firstn k x).
  Lemma S'_nonneg k : 0 <= S' k.
  Proof. apply rsum_nonneg, Forall_forall. intros y Hy. apply Hx. rewrite <- (firstn_skipn k x). apply in_or_app. left. exact Hy. Qed.
  Lemma acc_weights_eq : x <> [] ->
    zipw w (map (cap c) x) (set_first 1 1 (roll 1 (map (fun o => - o + 1) (map (cap c) (rscan Rplus 0 x))))) =
    map (fun k => cap c (S' (k + 1)) - cap c (S' k)) (seq 0 (length x)).
  Proof.
    intros Hn. rewrite rscan_plus, !map_map. 
    assert (L : exists n, length x = S n) by (destruct x as [|? xr]; [contradiction|exists (length xr); reflexivity]). destruct L as [n L].
    set (g := fun k => - cap c (0 + rsum (firstn (S k) x)) + 1).
    change (map (fun y => - cap c (0 + rsum (firstn (S y) x)) + 1) (seq 0 (length x))) with (map g (seq 0 (length x))).
    rewrite (roll_1 _ 0) by (rewrite L; discriminate). unfold set_first. cbn [firstn map skipn app].
    rewrite L, removelast_map_seq.
    assert (E : 1 :: map g (seq 0 n) = map (fun k => 1 - cap c (S' k)) (seq 0 (S n))).
    { cbn [seq map]. f_equal; [unfold S'; cbn; rewrite cap_0; ring|]. rewrite <- seq_shift, map_map. apply map_ext. intros k. unfold g, S'.
      rewrite Rplus_0_l. ring. }
    rewrite E. unfold zipw. rewrite combine_nth_map by (rewrite !map_length, seq_length; exact L). rewrite map_length, L.
    apply map_ext_in. intros k Hk. apply in_seq in Hk. rewrite nth_map_seq by lia.
    rewrite (nth_indep _ 0 (cap c 0)) by (rewrite map_length, L; lia). rewrite map_nth.
    rewrite cap_step; [|exact P|apply S'_nonneg|apply Hx, nth_In; lia].
    unfold S'. rewrite Nat.add_1_r, rsum_firstn_S by lia. reflexivity.
  Qed.
  Lemma acc_telescope n : sumf n (fun k => cap c (S' (k + 1)) - cap c (S' k)) = cap c (S' n).
  Proof.
    induction n as [|n IH]; [rewrite sumf_0; unfold S'; cbn; rewrite cap_0; reflexivity|]. rewrite sumf_S, IH, Nat.add_1_r. ring.
  Qed.
  Lemma acc_step_nonneg k : (k < length x)%nat -> 0 <= cap c (S' (k + 1)) - cap c (S' k).
  Proof.
    intros H. assert (K := cap_mono c (S' k) (S' (k + 1))). unfold S' in *. rewrite Nat.add_1_r, rsum_firstn_S in * by exact H.
    assert (0 <= nth k x 0) by (apply Hx, nth_In, H). lra.
  Qed.
End Acc.
Lemma rdiff_length l : length (rdiff l) = (length l - 1)%nat.
Proof. induction l as [|a [|b l] IH]; [reflexivity|reflexivity|]. change (rdiff (a :: b :: l)) with ((b - a) :: rdiff (b :: l)). cbn [length] in *. lia. Qed.
Lemma nondecreasing_tl a l : nondecreasing (a :: l) -> nondecreasing l.
Proof. intros H i j Hij Hj. apply (H (S i) (S j)); cbn; lia. Qed.
Lemma rdiff_nonneg l : nondecreasing l -> forall y, In y (rdiff l) -> 0 <= y.
Proof.
  induction l as [|a [|b l] IH]; intros H y Hy; [destruct Hy|destruct Hy|]. change (rdiff (a :: b :: l)) with ((b - a) :: rdiff (b :: l)) in Hy.
  destruct Hy as [<-|Hy].
  - specialize (H 0%nat 1%nat). cbn in H. assert (a <= b) by (apply H; lia). lra.
  - apply IH; [exact (nondecreasing_tl _ _ H)|exact Hy].
Qed.
Lemma acc_deltas_ok rl bg lengths : lengths <> [] -> (rl = true -> (2 <= length lengths)%nat) -> 0 <= bg -> nondecreasing lengths ->
  length (acc_deltas rl bg lengths) = length lengths /\ forall y, In y (acc_deltas rl bg lengths) -> 0 <= y.
Proof.
  intros Hn Hr Hb Hs. unfold acc_deltas. assert (L := rdiff_length lengths).
  destruct lengths as [|a l]; [contradiction|]. cbn [length] in L. destruct rl.
  - specialize (Hr eq_refl). cbn [length] in Hr. destruct (rev (rdiff (a :: l))) as [|z zs] eqn:E.
    + apply (f_equal (@length R)) in E. rewrite rev_length in E. cbn [length] in E. lia.
    + split; [rewrite app_length; cbn [length]; lia|]. intros y Hy. apply in_app_or in Hy as [Hy|[<-|[]]]; apply (rdiff_nonneg _ Hs); [exact Hy|].
      apply in_rev. rewrite E. left. reflexivity.
  - split; [rewrite app_length; cbn [length firstn map]; lia|]. intros y Hy. apply in_app_or in Hy as [Hy|[<-|[]]]; [apply (rdiff_nonneg _ Hs), Hy|exact Hb].
Qed.
Lemma acc_ok c w rl bg_op relu blend bg dens feats lengths : pairing c w ->
  dens <> [] -> length feats = length dens -> length lengths = length dens ->
  (rl = true -> (2 <= length dens)%nat) -> 0 <= bg_op -> nondecreasing lengths -> (relu = true \/ forall d, In d dens -> 0 <= d) ->
  exists weights depth o, acc_raymarch c w 1 rl bg_op relu blend bg dens feats lengths =
      Ok (weights, (if blend then o else 1) * sumf (length dens) (fun k => nth k weights 0 * nth k feats 0) + (1 - o) * bg, depth, o) /\
    length weights = length dens /\ (forall y, In y weights -> 0 <= y) /\ rsum weights = o /\ 0 <= o <= 1 /\
    depth = sumf (length dens) (fun k => nth k weights 0 * nth k lengths 0).
Proof.
  intros P Hn HF HL Hr Hb Hs Hd. unfold acc_raymarch. rewrite HF, HL, Nat.eqb_refl. cbn [andb negb].
  assert (HLn : lengths <> []) by (destruct lengths; [destruct dens; [contradiction|discriminate]|discriminate]).
  destruct (acc_deltas_ok rl bg_op lengths HLn ltac:(rewrite HL; exact Hr) Hb Hs) as [A1 A2].
  set (dl := acc_deltas rl bg_op lengths) in *. set (dr := if relu then map (fun d => Rmax d 0) dens else dens).
  assert (Lr : length dr = length dens) by (unfold dr; destruct relu; [apply map_length|reflexivity]).
  assert (Pr : forall y, In y dr -> 0 <= y).
  { unfold dr. destruct relu; [intros y Hy; apply in_map_iff in Hy as [z [<- _]]; apply Rmax_r|]. destruct Hd as [Hd|Hd]; [discriminate|exact Hd]. }
  rewrite bmul_eq by lia. cbn [rbind]. set (x := map (fun k => nth k dl 0 * nth k dr 0) (seq 0 (length dl))).
  assert (Lx : length x = length dens) by (unfold x; rewrite map_length, seq_length; lia).
  assert (Px : forall y, In y x -> 0 <= y).
  { intros y Hy. apply in_map_iff in Hy as [k [<- Hk]]. apply in_seq in Hk. apply Rmult_le_pos; [apply A2|apply Pr]; apply nth_In; lia. }
  assert (Nx : x <> []) by (intros E; rewrite E in Lx; destruct dens; [contradiction|discriminate]).
  clearbody x dl dr. rewrite acc_weights_eq by assumption.
  assert (E : exists r, rev (map (cap c) (rscan Rplus 0 x)) = cap c (rsum x) :: r).
  { rewrite rscan_plus, map_map. destruct x as [|x0 xr] eqn:Ex; [contradiction|]. rewrite <- Ex. replace (length x) with (S (length xr)) by (rewrite Ex; reflexivity).
    rewrite rev_map_seq_last. eexists. do 2 f_equal. rewrite Rplus_0_l. rewrite firstn_all2 by (rewrite Ex; cbn; lia). reflexivity. }
  destruct E as [r ->].
  set (W := map (fun k => cap c (rsum (firstn (k + 1) x)) - cap c (rsum (firstn k x))) (seq 0 (length x))).
  assert (LW : length W = length dens) by (unfold W; rewrite map_length, seq_length; exact Lx).
  rewrite !bmul_eq by lia. cbn [rbind]. exists W. do 2 eexists. split.
  { f_equal. f_equal. f_equal. f_equal. rewrite LW. reflexivity. }
  split; [exact LW|]. split.
  { intros y Hy. unfold W in Hy. apply in_map_iff in Hy as [k [<- Hk]]. apply in_seq in Hk. apply (acc_step_nonneg c x Px). lia. }
  split. { unfold W. change (sumf (length x) (fun k => cap c (rsum (firstn (k + 1) x)) - cap c (rsum (firstn k x))) = cap c (rsum x)).
    rewrite (acc_telescope c x). rewrite firstn_all. reflexivity. }
  split; [|rewrite LW; reflexivity]. split; [|apply cap_le1]. rewrite <- (cap_0 c). apply cap_mono. apply rsum_nonneg, Forall_forall. exact Px.
Qed.
Lemma convex_bound (ws fs : list R) o bg a b n : length ws = n -> (forall y, In y ws -> 0 <= y) -> rsum ws = o -> o <= 1 ->
  length fs = n -> all_in a b fs -> a <= bg <= b ->
  a <= sumf n (fun k => nth k ws 0 * nth k fs 0) + (1 - o) * bg <= b.
Proof.
  intros Lw Pw Sw Ho Lf Hf Hbg.
  assert (E : forall c, sumf n (fun k => nth k ws 0 * c) = o * c).
  { intros c. rewrite (sumf_ext _ _ (fun k => c * nth k ws 0)) by (intros; ring). rewrite sumf_scal. rewrite <- Sw, Rmult_comm. f_equal.
    unfold sumf. rewrite <- Lw. f_equal. clear. induction ws as [|y ws IH]; [reflexivity|]. cbn [length seq map nth]. f_equal. rewrite <- seq_shift, map_map. exact IH. }
  assert (A : sumf n (fun k => nth k ws 0 * a) <= sumf n (fun k => nth k ws 0 * nth k fs 0)).
  { apply sumf_le. intros k Hk. apply Rmult_le_compat_l; [apply Pw, nth_In; lia|]. apply Hf, nth_In. lia. }
  assert (B : sumf n (fun k => nth k ws 0 * nth k fs 0) <= sumf n (fun k => nth k ws 0 * b)).
  { apply sumf_le. intros k Hk. apply Rmult_le_compat_l; [apply Pw, nth_In; lia|]. apply Hf, nth_In. lia. }
  rewrite E in A, B. nra.
Qed.
