From Verif Require Import Base RBase MinK MinKSpec.
Local Open Scope R_scope.

Section P.
Context {A : Type}.


Definition slots (s : mink A) : list (R * A) := combine (mk_keys s) (mk_vals s).
Definition kept (s : mink A) := firstn (mk_size s) (slots s).

Record minv (cap : nat) (s : mink A) : Prop := {
  mi_lk : length (mk_keys s) = cap;
  mi_lv : length (mk_vals s) = cap;
  mi_cap : (mk_K s <= cap)%nat;
  mi_size : (mk_size s <= mk_K s)%nat;
  mi_max : (1 <= mk_size s)%nat -> exists m i, mk_max_key s = Some m /\ mk_max_idx s = Some i /\
     (i < mk_size s)%nat /\ nth i (mk_keys s) 0 = m /\
     forall j, (j < mk_size s)%nat -> nth j (mk_keys s) 0 <= m }.

Lemma kept_length cap s : minv cap s -> length (kept s) = mk_size s.
Proof. intros [H1 H2 H3 H4 _]. unfold kept, slots. rewrite firstn_length, combine_length. lia. Qed.

Lemma kept_key cap s e : minv cap s -> In e (kept s) -> exists j, (j < mk_size s)%nat /\ nth j (mk_keys s) 0 = fst e.
Proof.
  intros I H. pose proof (kept_length cap s I) as L. destruct I as [H1 H2 H3 H4 _].
  destruct e as [k v]. apply (In_nth _ _ (0, v)) in H. destruct H as [j [Hj E]].
  rewrite L in Hj. unfold kept, slots in E. rewrite nth_firstn_lt in E by assumption.
  rewrite combine_nth in E by lia. injection E as E1 E2. exists j. split; [assumption|]. exact E1.
Qed.

Lemma rescan_ok keys K : forall k0 i0, (K <= length keys)%nat -> (i0 < length keys)%nat -> nth i0 keys 0 = k0 ->
  exists m i, mink_rescan keys K k0 i0 = Ok (m, i) /\ nth i keys 0 = m /\ (i = i0 \/ (i < K)%nat) /\ k0 <= m /\
    forall j, (j < K)%nat -> nth j keys 0 <= m.
Proof.
  intros k0 i0 HK Hi E0. unfold mink_rescan.
  destruct (rfold_seq_inv (fun '(mk, mi) k =>
           cur <- rget keys k ;; Ok (if Rltb mk cur then (cur, k) else (mk, mi)))
     (fun k s => nth (snd s) keys 0 = fst s /\ (snd s = i0 \/ (snd s < k)%nat) /\ k0 <= fst s /\
        forall j, (j < k)%nat -> nth j keys 0 <= fst s) K 0 (k0, i0)) as [[m i] [E [I1 [I2 [I3 I4]]]]].
  - cbn. repeat split; auto; [lra|intros; lia].
  - intros k [mk mi] Hk [I1 [I2 [I3 I4]]]. cbn in I1, I2, I3, I4.
    rewrite (rget_nth _ _ 0) by lia. cbn [rbind].
    destruct (Rltb_spec mk (nth k keys 0)) as [L|L].
    + eexists. split; [reflexivity|]. cbn. repeat split; auto; [lra|].
      intros j Hj. destruct (Nat.eq_dec j k) as [->|]; [lra|]. specialize (I4 j ltac:(lia)). lra.
    + eexists. split; [reflexivity|]. cbn. repeat split; auto; [destruct I2; auto; right; lia|].
      intros j Hj. destruct (Nat.eq_dec j k) as [->|]; [lra|]. apply I4; lia.
  - exists m, i. cbn in *. auto.
Qed.

Lemma sel_snoc_grow K ins kept (e : R * A) :
  (length kept < K)%nat -> selects_smallest K ins kept -> selects_smallest K (ins ++ [e]) (kept ++ [e]).
Proof.
  intros HK [HL [rest [HP HR]]]. split.
  - rewrite !app_length; cbn. lia.
  - assert (rest = []) as ->.
    { apply Permutation_length in HP. rewrite app_length in HP. destruct rest; [reflexivity|cbn in HP; lia]. }
    exists []. rewrite app_nil_r in *. split; [|intros a b _ []]. rewrite HP. reflexivity.
Qed.
Lemma sel_perm K (ins k k' : list (R * A)) : Permutation k k' -> selects_smallest K ins k -> selects_smallest K ins k'.
Proof.
  intros P [HL [rest [HP HR]]]. split; [rewrite <- (Permutation_length P); assumption|].
  exists rest. split; [rewrite HP, P; reflexivity|]. intros a b Ha. apply HR. apply (Permutation_in _ (Permutation_sym P)); assumption.
Qed.
Lemma sel_reject K ins kept (e : R * A) :
  length kept = K -> (forall a, In a kept -> fst a <= fst e) -> selects_smallest K ins kept ->
  selects_smallest K (ins ++ [e]) kept.
Proof.
  intros HK HM [HL [rest [HP HR]]]. split.
  - rewrite app_length; cbn. lia.
  - exists (rest ++ [e]). split; [rewrite HP, app_assoc; reflexivity|].
    intros a b Ha Hb. apply in_app_or in Hb. destruct Hb as [Hb|[<-|[]]]; auto.
Qed.
Lemma sel_replace K ins l1 l2 (old e : R * A) :
  length (l1 ++ old :: l2) = K -> (forall a, In a (l1 ++ old :: l2) -> fst a <= fst old) -> fst e < fst old ->
  selects_smallest K ins (l1 ++ old :: l2) -> selects_smallest K (ins ++ [e]) (l1 ++ e :: l2).
Proof.
  intros HK HM He [HL [rest [HP HR]]]. split.
  - rewrite !app_length in *; cbn in *. lia.
  - exists (old :: rest). split.
    + rewrite HP. rewrite <- !app_assoc. apply Permutation_app_head. cbn [app].
      rewrite (Permutation_app_comm (l2 ++ rest) [e]) || rewrite app_assoc, (Permutation_app_comm (l2 ++ rest) [e]).
      cbn [app]. rewrite perm_swap. apply perm_skip. apply Permutation_middle.
    + intros a b Ha Hb. assert (X : fst a <= fst old).
      { apply in_app_or in Ha. destruct Ha as [Ha|[<-|Ha]]; [|lra|]; apply HM, in_or_app; cbn; auto. }
      destruct Hb as [<-|Hb]; [assumption|].
      apply Rle_trans with (fst old); [assumption|]. apply HR; [apply in_or_app; right; left; reflexivity|assumption].
Qed.

Lemma upd_firstn_snoc {B} (l l' : list B) n v : upd l n v = Ok l' -> firstn (S n) l' = firstn n l ++ [v].
Proof.
  revert n l'; induction l as [|x l IH]; intros [|n] l' H; cbn in *; try discriminate.
  - injection H as <-. reflexivity.
  - destruct (upd l n v) eqn:E; cbn in H; [|discriminate]. injection H as <-. cbn. f_equal.
    change (match a with [] => [] | a1 :: l0 => a1 :: firstn n l0 end) with (firstn (S n) a). apply IH; assumption.
Qed.

Lemma add_ok cap s key val ins : minv cap s -> (1 <= mk_K s)%nat ->
  selects_smallest (mk_K s) ins (kept s) ->
  exists s', mink_add s key val = Ok s' /\ minv cap s' /\ mk_K s' = mk_K s /\
    selects_smallest (mk_K s) (ins ++ [(key, val)]) (kept s') /\
    (forall j, (mk_size s' <= j)%nat -> nth_error (slots s') j = nth_error (slots s) j).
Proof.
  intros I HK HS. pose proof (kept_length cap s I) as KL. pose proof I as [H1 H2 H3 H4 H5].
  unfold mink_add. destruct (Nat.ltb_spec (mk_size s) (mk_K s)) as [Lt|Ge].
  - destruct (upd_ok (mk_keys s) (mk_size s) key) as [ks Ek]; [lia|].
    destruct (upd_ok (mk_vals s) (mk_size s) val) as [vs Ev]; [lia|].
    rewrite Ek, Ev. cbn [rbind].
    assert (Nk : forall j, nth j ks 0 = if (j =? mk_size s)%nat then key else nth j (mk_keys s) 0)
      by (intros; eapply upd_nth; eauto).
    assert (exists nm, (if (mk_size s =? 0)%nat then Ok true else mk <- rinit (mk_max_key s) ;; Ok (Rltb mk key)) = Ok nm /\
       ((1 <= mk_size s)%nat -> forall m, mk_max_key s = Some m -> nm = Rltb m key) /\ (mk_size s = 0%nat -> nm = true)) as [nm [-> [Hnm1 Hnm0]]].
    { destruct (Nat.eqb_spec (mk_size s) 0).
      - exists true. repeat split; auto. intros; lia.
      - destruct H5 as [m [i [-> _]]]; [lia|]. cbn. eexists; split; [reflexivity|]. split; [congruence|lia]. }
    cbn [rbind]. eexists. split; [reflexivity|]. split; [|split; [reflexivity|split]].
    + constructor; cbn; auto.
      * rewrite (upd_length _ _ _ _ Ek). assumption.
      * rewrite (upd_length _ _ _ _ Ev). assumption.
      * intros _. destruct (Nat.eq_dec (mk_size s) 0) as [E0|N0].
        { rewrite (Hnm0 E0). exists key, (mk_size s). repeat split; auto; try lia.
          - rewrite Nk, Nat.eqb_refl. reflexivity.
          - intros j Hj. rewrite Nk. destruct (Nat.eqb_spec j (mk_size s)); [lra|lia]. }
        destruct H5 as [m [i [Em [Ei [Li [Ni Mi]]]]]]; [lia|].
        rewrite (Hnm1 ltac:(lia) m Em). destruct (Rltb_spec m key) as [Lm|Lm].
        { exists key, (mk_size s). repeat split; auto; try lia.
          - rewrite Nk, Nat.eqb_refl. reflexivity.
          - intros j Hj. rewrite Nk. destruct (Nat.eqb_spec j (mk_size s)); [lra|]. specialize (Mi j ltac:(lia)). lra. }
        { exists m, i. repeat split; auto; try lia.
          - rewrite Nk. destruct (Nat.eqb_spec i (mk_size s)); [lia|assumption].
          - intros j Hj. rewrite Nk. destruct (Nat.eqb_spec j (mk_size s)); [lra|]. apply Mi; lia. }
    + assert (Ec : upd (slots s) (mk_size s) (key, val) = Ok (combine ks vs)).
      { unfold slots. apply upd_combine; auto. congruence. }
      unfold kept, slots. cbn [mk_size mk_keys mk_vals]. rewrite (upd_firstn_snoc _ _ _ _ Ec).
      apply sel_snoc_grow; [fold (kept s); rewrite KL; assumption|]. exact HS.
    + cbn [mk_size]. intros j Hj. unfold slots at 1. cbn [mk_keys mk_vals].
      assert (Ec : upd (slots s) (mk_size s) (key, val) = Ok (combine ks vs)).
      { unfold slots. apply upd_combine; auto. congruence. }
      apply (upd_other _ _ _ _ _ Ec). lia.
  - assert (ES : mk_size s = mk_K s) by lia.
    destruct H5 as [m [i [Em [Ei [Li [Ni Mi]]]]]]; [lia|].
    rewrite Em. cbn [rinit rbind]. destruct (Rltb_spec key m) as [Lk|Lk].
    + rewrite Ei. cbn [rinit rbind].
      destruct (upd_ok (mk_keys s) i key) as [ks Ek]; [lia|].
      destruct (upd_ok (mk_vals s) i val) as [vs Ev]; [lia|].
      rewrite Ek, Ev. cbn [rbind].
      assert (Nk : forall j, nth j ks 0 = if (j =? i)%nat then key else nth j (mk_keys s) 0)
        by (intros; eapply upd_nth; eauto).
      assert (Lks := upd_length _ _ _ _ Ek). assert (Lvs := upd_length _ _ _ _ Ev).
      destruct (rescan_ok ks (mk_K s) key i) as [m' [i' [-> [R1 [R2 [R3 R4]]]]]]; try lia.
      { rewrite Nk, Nat.eqb_refl. reflexivity. }
      cbn [rbind fst snd]. eexists. split; [reflexivity|].
      assert (Ec : upd (slots s) i (key, val) = Ok (combine ks vs)).
      { unfold slots. apply upd_combine; auto. congruence. }
      split; [|split; [reflexivity|split]].
      * constructor; cbn; auto; try lia. intros _. exists m', i'. repeat split; auto; try lia. intros j Hj. apply R4. lia.
      * unfold kept, slots. cbn [mk_size mk_keys mk_vals].
        assert (Ef := upd_firstn _ _ _ _ (mk_size s) Ec Li).
        destruct (upd_split _ _ _ _ (0, val) Ef) as [l1 [l2 [E1 [E2 E3]]]].
        fold (kept s) in E1. rewrite E2.
        assert (Eo : fst (nth i (kept s) (0, val)) = m).
        { unfold kept, slots. rewrite nth_firstn_lt by assumption. rewrite combine_nth by lia. cbn. assumption. }
        rewrite E1 in HS.
        apply (sel_replace _ _ _ _ (nth i (kept s) (0, val))); auto.
        { rewrite <- E1, KL. assumption. }
        { intros a Ha. rewrite <- E1 in Ha. destruct (kept_key cap s a I Ha) as [j [Hj <-]]. rewrite Eo. apply Mi; assumption. }
        { cbn. rewrite Eo. assumption. }
      * cbn [mk_size]. intros j Hj. unfold slots at 1. cbn [mk_keys mk_vals]. apply (upd_other _ _ _ _ _ Ec). lia.
    + exists s. split; [reflexivity|]. split; [assumption|]. split; [reflexivity|]. split; [|reflexivity].
      apply sel_reject; auto; [congruence|].
      intros a Ha. destruct (kept_key cap s a I Ha) as [j [Hj <-]]. specialize (Mi j Hj). cbn. lra.
Qed.

Lemma adds_ok cap s ins0 ins : minv cap s -> (1 <= mk_K s)%nat -> selects_smallest (mk_K s) ins0 (kept s) ->
  exists s', mink_adds s ins = Ok s' /\ minv cap s' /\ mk_K s' = mk_K s /\
    selects_smallest (mk_K s) (ins0 ++ ins) (kept s') /\ (mk_size s <= mk_size s')%nat /\
    (forall j, (mk_size s' <= j)%nat -> nth_error (slots s') j = nth_error (slots s) j).
Proof.
  revert s ins0. induction ins as [|[k v] ins IH]; intros s ins0 I HK HS.
  - exists s. rewrite app_nil_r. unfold mink_adds; cbn. do 5 (split; auto).
  - destruct (add_ok cap s k v ins0 I HK HS) as [s1 [E1 [I1 [K1 [S1 U1]]]]].
    assert (Z : (mk_size s <= mk_size s1)%nat).
    { pose proof (kept_length _ _ I) as A1. pose proof (kept_length _ _ I1) as A2.
      destruct HS as [B1 _]. destruct S1 as [B2 _]. rewrite app_length in B2. lia. }
    destruct (IH s1 (ins0 ++ [(k, v)]) I1) as [s' [E' [I' [K' [S' [Z' U']]]]]]; [lia|rewrite K1; assumption|].
    exists s'. unfold mink_adds in *. cbn [rfold fst snd]. rewrite E1. cbn [rbind].
    rewrite E'. split; [reflexivity|]. rewrite K1 in *. rewrite <- app_assoc in S'. cbn in S'.
    do 4 (split; [assumption || lia|]). intros j Hj. rewrite U' by assumption. apply U1. lia.
Qed.

(* ---- bubble sort ---- *)
Definition sw (kv : list R * list A) : list (R * A) := combine (fst kv) (snd kv).

Lemma upd_perm_swap {B} (l l1 l2 : list B) j a b : nth_error l j = Some a -> nth_error l (S j) = Some b ->
  upd l j b = Ok l1 -> upd l1 (S j) a = Ok l2 -> Permutation l2 l.
Proof.
  revert j l1 l2; induction l as [|x l IH]; intros j l1 l2 Ha Hb U1 U2; [destruct j; discriminate|].
  destruct j as [|j]; cbn in *.
  - injection Ha as ->. injection U1 as <-. destruct l as [|y l]; [discriminate|]. injection Hb as ->. cbn in U2. injection U2 as <-.
    apply perm_swap.
  - destruct (upd l j b) eqn:E1; cbn in U1; [|discriminate]. injection U1 as <-. cbn in U2.
    destruct (upd a0 (S j) a) eqn:E2; cbn in U2; [|discriminate]. injection U2 as <-. apply perm_skip. eapply IH; eauto.
Qed.

Definition bub (n : nat) (kv0 kv : list R * list A) : Prop :=
  length (fst kv) = length (fst kv0) /\ length (snd kv) = length (snd kv0) /\
  Permutation (firstn n (sw kv)) (firstn n (sw kv0)) /\
  (forall j, (n <= j)%nat -> nth_error (sw kv) j = nth_error (sw kv0) j).

Lemma bubble_step_ok n kv0 kv j : length (fst kv0) = length (snd kv0) -> (n <= length (fst kv0))%nat ->
  bub n kv0 kv -> (S j < n)%nat ->
  exists kv', bubble_step kv j = Ok kv' /\ bub n kv0 kv' /\
    nth j (fst kv') 0 = Rmin (nth j (fst kv) 0) (nth (S j) (fst kv) 0) /\
    nth (S j) (fst kv') 0 = Rmax (nth j (fst kv) 0) (nth (S j) (fst kv) 0) /\
    forall i, i <> j -> i <> S j -> nth i (fst kv') 0 = nth i (fst kv) 0.
Proof.
  intros L0 Hn [B1 [B2 [B3 B4]]] Hj. destruct kv as [ks vs]. cbn [fst snd] in *.
  assert (v0 : A). { destruct vs as [|v vs]; [cbn in *; lia|exact v]. }
  unfold bubble_step. rewrite (rget_nth ks (S j) 0), (rget_nth ks j 0) by lia. cbn [rbind].
  destruct (Rltb_spec (nth (S j) ks 0) (nth j ks 0)) as [Lt|Ge].
  - rewrite (rget_nth vs j v0), (rget_nth vs (S j) v0) by lia. cbn [rbind].
    destruct (upd_ok ks j (nth (S j) ks 0)) as [k1 E1]; [lia|].
    destruct (upd_ok vs j (nth (S j) vs v0)) as [w1 F1]; [lia|]. rewrite E1, F1. cbn [rbind].
    assert (Lk1 := upd_length _ _ _ _ E1). assert (Lw1 := upd_length _ _ _ _ F1).
    destruct (upd_ok k1 (S j) (nth j ks 0)) as [k2 E2]; [lia|].
    destruct (upd_ok w1 (S j) (nth j vs v0)) as [w2 F2]; [lia|]. rewrite E2, F2. cbn [rbind].
    assert (Lk2 := upd_length _ _ _ _ E2). assert (Lw2 := upd_length _ _ _ _ F2).
    eexists. split; [reflexivity|]. cbn [fst snd].
    assert (C1 : upd (combine ks vs) j (nth (S j) ks 0, nth (S j) vs v0) = Ok (combine k1 w1)) by (apply upd_combine; auto; lia).
    assert (C2 : upd (combine k1 w1) (S j) (nth j ks 0, nth j vs v0) = Ok (combine k2 w2)) by (apply upd_combine; auto; lia).
    split.
    + unfold bub. cbn [fst snd]. repeat split; try lia.
      * rewrite <- B3. unfold sw. cbn [fst snd].
        apply (upd_perm_swap (firstn n (combine ks vs)) (firstn n (combine k1 w1)) _ j (nth j ks 0, nth j vs v0) (nth (S j) ks 0, nth (S j) vs v0)).
        -- rewrite nth_error_firstn. destruct (Nat.ltb_spec j n); [|lia].
           rewrite (nth_error_nth' _ (0, v0)) by (rewrite combine_length; lia). rewrite combine_nth by lia. reflexivity.
        -- rewrite nth_error_firstn. destruct (Nat.ltb_spec (S j) n); [|lia].
           rewrite (nth_error_nth' _ (0, v0)) by (rewrite combine_length; lia). rewrite combine_nth by lia. reflexivity.
        -- apply upd_firstn; [assumption|lia].
        -- apply upd_firstn; [assumption|lia].
      * intros i Hi. unfold sw at 1. cbn [fst snd].
        rewrite (upd_other _ _ _ _ _ C2) by lia. rewrite (upd_other _ _ _ _ _ C1) by lia. apply B4; assumption.
    + assert (N : forall i, nth i k2 0 = if (i =? S j)%nat then nth j ks 0 else if (i =? j)%nat then nth (S j) ks 0 else nth i ks 0).
      { intros i. rewrite (upd_nth _ _ _ _ 0 i E2), (upd_nth _ _ _ _ 0 i E1). reflexivity. }
      repeat split.
      * rewrite N. destruct (Nat.eqb_spec j (S j)); [lia|]. rewrite Nat.eqb_refl. rewrite Rmin_right; lra.
      * rewrite N, Nat.eqb_refl. rewrite Rmax_left; lra.
      * intros i N1 N2. rewrite N. destruct (Nat.eqb_spec i (S j)); [lia|]. destruct (Nat.eqb_spec i j); [lia|]. reflexivity.
  - eexists. split; [reflexivity|]. split; [repeat split; auto|]. cbn [fst].
    rewrite Rmin_left, Rmax_right by lra. auto.
Qed.

Lemma bubble_pass_ok n kv0 kv m : length (fst kv0) = length (snd kv0) -> (n <= length (fst kv0))%nat ->
  bub n kv0 kv -> (m < n)%nat ->
  exists kv', rfold bubble_step (seq 0 m) kv = Ok kv' /\ bub n kv0 kv' /\
    (forall i, (m < i)%nat -> nth i (fst kv') 0 = nth i (fst kv) 0) /\
    (forall i, (i < m)%nat -> nth i (fst kv') 0 <= nth m (fst kv') 0) /\
    (forall c, (forall i, (i <= m)%nat -> nth i (fst kv) 0 <= c) -> forall i, (i <= m)%nat -> nth i (fst kv') 0 <= c).
Proof.
  intros L0 Hn B Hm.
  destruct (rfold_seq_inv bubble_step
    (fun j kv' => bub n kv0 kv' /\
      (forall i, (j < i)%nat -> nth i (fst kv') 0 = nth i (fst kv) 0) /\
      (forall i, (i < j)%nat -> nth i (fst kv') 0 <= nth j (fst kv') 0) /\
      (forall c, (forall i, (i <= m)%nat -> nth i (fst kv) 0 <= c) -> forall i, (i <= m)%nat -> nth i (fst kv') 0 <= c)) m 0 kv)
    as [kv' [E I]].
  - repeat split; try apply B; auto. intros; lia.
  - intros j s Hj [I1 [I2 [I3 I4]]].
    destruct (bubble_step_ok n kv0 s j L0 Hn I1 ltac:(lia)) as [s' [E' [B' [N1 [N2 N3]]]]].
    exists s'. split; [assumption|]. split; [assumption|]. split; [|split].
    + intros i Hi. rewrite N3 by lia. apply I2; lia.
    + intros i Hi. rewrite N2. destruct (Nat.eq_dec i j) as [->|N].
      * rewrite N1. apply Rle_trans with (nth j (fst s) 0); [apply Rmin_l|apply Rmax_l].
      * rewrite N3 by lia. apply Rle_trans with (nth j (fst s) 0); [apply I3; lia|apply Rmax_l].
    + intros c Hc i Hi. assert (X := I4 c Hc).
      destruct (Nat.eq_dec i j) as [->|]; [rewrite N1; apply Rle_trans with (nth j (fst s) 0); [apply Rmin_l|apply X; lia]|].
      destruct (Nat.eq_dec i (S j)) as [->|]; [rewrite N2; apply Rmax_lub; apply X; lia|].
      rewrite N3 by lia. apply X; assumption.
  - cbn in I. exists kv'. split; [assumption|]. exact I.
Qed.

Lemma sort_ok cap s : minv cap s ->
  exists s', mink_sort s = Ok s' /\ mk_size s' = mk_size s /\ mk_K s' = mk_K s /\
    Permutation (kept s') (kept s) /\ ascending (kept s') /\
    (forall j, (mk_size s <= j)%nat -> nth_error (slots s') j = nth_error (slots s) j).
Proof.
  intros [H1 H2 H3 H4 _]. unfold mink_sort. set (n := mk_size s). set (kv0 := (mk_keys s, mk_vals s)).
  assert (L0 : length (fst kv0) = length (snd kv0)) by (cbn; congruence).
  assert (Hn : (n <= length (fst kv0))%nat) by (cbn; unfold n; lia).
  fold n. fold kv0.
  destruct (rfold_seq_inv (fun kv i => rfold bubble_step (seq 0 (n - i - 1)) kv)
    (fun i kv => bub n kv0 kv /\ forall p q, (p < q)%nat -> (n - i <= q < n)%nat -> nth p (fst kv) 0 <= nth q (fst kv) 0)
    (n - 1) 0 kv0) as [kv [E [B HS]]].
  - split; [repeat split; auto|]. intros; lia.
  - intros i kv Hi [B HS].
    destruct (bubble_pass_ok n kv0 kv (n - i - 1) L0 Hn B ltac:(lia)) as [kv' [E' [B' [U [M C]]]]].
    exists kv'. split; [assumption|]. split; [assumption|].
    intros p q Hpq Hq. destruct (Nat.eq_dec q (n - i - 1)) as [->|N].
    + apply M; lia.
    + rewrite (U q) by lia. destruct (Nat.le_gt_cases p (n - i - 1)).
      * apply C; [|assumption]. intros i' Hi'. apply HS; lia.
      * rewrite U by lia. apply HS; lia.
  - rewrite E. cbn [rbind].
    eexists. split; [reflexivity|]. cbn [mk_size mk_K]. split; [reflexivity|]. split; [reflexivity|].
    destruct B as [B1 [B2 [B3 B4]]]. unfold kept, slots. cbn [mk_size mk_keys mk_vals].
    split; [exact B3|]. split; [|exact B4].
    intros i j a b Hij Ha Hb.
    assert (Lc : length (combine (fst kv) (snd kv)) = cap) by (rewrite combine_length; cbn in B1, B2; lia).
    assert (G : forall i a, nth_error (firstn n (combine (fst kv) (snd kv))) i = Some a -> (i < n)%nat /\ fst a = nth i (fst kv) 0).
    { intros i0 [x y] Hx. rewrite nth_error_firstn in Hx. destruct (Nat.ltb_spec i0 n); [|discriminate].
      split; [assumption|]. apply (nth_error_nth _ _ (0, y)) in Hx. rewrite combine_nth in Hx by (cbn in *; lia).
      injection Hx as <- _. reflexivity. }
    apply G in Ha, Hb. destruct Ha as [La ->]. destruct Hb as [Lb ->]. apply HS; lia.
Qed.

Lemma mink_correct keys vals K ins : length keys = length vals -> (K <= length keys)%nat -> (1 <= K)%nat ->
  exists s s', mink_adds (mink_init keys vals K) ins = Ok s /\ mink_sort s = Ok s' /\
    mk_size s = Nat.min K (length ins) /\ mk_size s' = mk_size s /\
    selects_smallest K ins (kept s) /\ selects_smallest K ins (kept s') /\ ascending (kept s') /\
    (forall j, (mk_size s <= j)%nat -> nth_error (slots s') j = nth_error (combine keys vals) j).
Proof.
  intros L HK H1.
  assert (I0 : minv (length keys) (mink_init keys vals K)).
  { constructor; cbn; auto; lia. }
  destruct (adds_ok (length keys) (mink_init keys vals K) [] ins I0) as [s [E [I [K' [S' [_ U]]]]]]; auto.
  { split; [cbn; lia|]. exists []. split; [reflexivity|]. intros a b []. }
  destruct (sort_ok _ s I) as [s' [E' [Z [K2 [P [As U']]]]]].
  exists s, s'. cbn in S'. repeat split; auto; try apply S'.
  - destruct S' as [SL _]. rewrite <- SL. symmetry. eapply kept_length; eauto.
  - apply (sel_perm K ins (kept s)); [symmetry; assumption|assumption].
  - apply (sel_perm K ins (kept s)); [symmetry; assumption|assumption].
  - intros j Hj. rewrite U' by assumption. apply U; assumption.
Qed.
End P.
