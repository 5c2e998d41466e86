(* Statistics: the implementation follows the log. *)
From Coq Require Import ZArith Reals Lra String.
From Verif Require Import Base RBase Stats StatsSpec.
Local Open Scope R_scope.
Local Open Scope list_scope.

(* ---- dictionaries ---- *)
Lemma get_put_same {A} k (a : A) d : get k (put k a d) = Some a.
Proof. induction d as [|(k', a') d IH]; cbn; [rewrite String.eqb_refl; reflexivity|]. destruct (String.eqb_spec k k') as [->|N]; cbn; [rewrite String.eqb_refl; reflexivity|]. apply String.eqb_neq in N. rewrite N. exact IH. Qed.
Lemma get_put_other {A} k k' (a : A) d : k' <> k -> get k' (put k a d) = get k' d.
Proof.
  intros N. induction d as [|(x, a') d IH]; cbn; [apply String.eqb_neq in N; rewrite N; reflexivity|]. destruct (String.eqb_spec k x) as [->|Nx]; cbn.
  - apply String.eqb_neq in N. rewrite N. reflexivity.
  - destruct (String.eqb k' x); [reflexivity|exact IH].
Qed.
Lemma put_keys {A} k (a : A) d x : In x (map fst (put k a d)) <-> x = k \/ In x (map fst d).
Proof.
  induction d as [|(k', a') d IH]; cbn; [split; intros [->|H]; auto|]. destruct (String.eqb_spec k k') as [->|N]; cbn; [intuition congruence|]. rewrite IH. intuition congruence.
Qed.
Lemma put_nodup {A} k (a : A) d : NoDup (map fst d) -> NoDup (map fst (put k a d)).
Proof.
  induction d as [|(k', a') d IH]; cbn; intros H; [repeat constructor; intros []|]. inversion H as [|x l H1 H2]; subst. destruct (String.eqb_spec k k') as [->|N]; cbn; constructor; try assumption; [|apply IH; assumption].
  rewrite put_keys. intros [->|C]; [apply N; reflexivity|contradiction].
Qed.
Lemma get_none {A} k (d : list (string * A)) : get k d = None <-> ~ In k (map fst d).
Proof.
  induction d as [|(k', a') d IH]; cbn; [tauto|]. destruct (String.eqb_spec k k') as [->|N]; [split; [discriminate|intros C; exfalso; apply C; left; reflexivity]|]. rewrite IH. split; [intros H [C|C]; [congruence|contradiction]|tauto].
Qed.
Lemma get_map {A B} (f : A -> B) k d : get k (map (fun p => (fst p, f (snd p))) d) = option_map f (get k d).
Proof. induction d as [|(k', a') d IH]; cbn; [reflexivity|]. destruct (String.eqb k k'); [reflexivity|exact IH]. Qed.
Lemma get_in {A} k (a : A) d : NoDup (map fst d) -> (get k d = Some a <-> In (k, a) d).
Proof.
  induction d as [|(k', a') d IH]; cbn; intros H; [split; [discriminate|intros []]|]. inversion H as [|x l H1 H2]; subst. destruct (String.eqb_spec k k') as [->|N].
  - split; [intros E; injection E as ->; left; reflexivity|]. intros [E|C]; [injection E as ->; reflexivity|]. exfalso. apply H1. apply in_map_iff. exists (k', a). split; [reflexivity|exact C].
  - rewrite IH by exact H2. split; [tauto|]. intros [E|C]; [injection E as -> ->; exfalso; apply N; reflexivity|exact C].
Qed.

(* ---- one update ---- *)
Lemma pad_nth e h i : nth i (padded e h) [] = nth i h [].
Proof.
  unfold padded. destruct (Nat.lt_ge_cases i (length h)); [apply app_nth1; assumption|]. rewrite app_nth2 by assumption. rewrite (nth_overflow h) by assumption. apply nth_repeat.
Qed.
Lemma pad_length e h : length (padded e h) = Nat.max (length h) (Z.to_nat (e + 1)).
Proof. unfold padded. rewrite app_length, repeat_length. lia. Qed.
Lemma put_at {A} (h : list (list A)) e v x : nth_error h e = Some x -> forall i, nth i (firstn e h ++ (x ++ [v]) :: skipn (S e) h) [] = nth i h [] ++ (if Nat.eqb i e then [v] else []).
Proof.
  intros E i. assert (L : (e < length h)%nat) by (apply nth_error_Some; congruence).
  assert (SP : h = firstn e h ++ x :: skipn (S e) h).
  { rewrite <- (firstn_skipn e h) at 1. f_equal. clear - E L. revert e E L. induction h as [|y h IH]; intros [|e] E L; cbn in *; [lia|lia|injection E as ->; reflexivity|]. apply IH; [exact E|lia]. }
  assert (LF : length (firstn e h) = e) by (rewrite firstn_length; lia).
  rewrite SP at 3. destruct (Nat.eqb_spec i e) as [->|N].
  - rewrite !app_nth2 by lia. rewrite LF, Nat.sub_diag. reflexivity.
  - rewrite app_nil_r. destruct (Nat.lt_ge_cases i e).
    + rewrite !app_nth1 by lia. reflexivity.
    + rewrite !app_nth2 by lia. rewrite LF. destruct (i - e)%nat eqn:Ei; [lia|]. reflexivity.
Qed.
Lemma update_ok m v n e : (0 <= e)%Z -> (n <> 0)%Z -> (count m + n <> 0)%Z -> exists m', update_meter m v n e = (m', Ok tt) /\
  (forall i, nth i (history m') [] = nth i (history m) [] ++ (if (Z.of_nat i =? e)%Z then [v / IZR n] else [])) /\
  length (history m') = Nat.max (length (history m)) (Z.to_nat (e + 1)) /\
  val m' = v /\ sum m' = sum m + v * IZR n /\ count m' = (count m + n)%Z /\ avg m' = sum m' / IZR (count m').
Proof.
  intros He Hn Hc. unfold update_meter. assert (PI : py_index (length (padded e (history m))) e = Some (Z.to_nat e)).
  { unfold py_index. rewrite pad_length. destruct (Z.leb_spec 0 e); [|lia]. destruct (Z.ltb_spec e (Z.of_nat (Nat.max (length (history m)) (Z.to_nat (e + 1))))); [reflexivity|lia]. }
  rewrite PI. apply Z.eqb_neq in Hn. rewrite Hn. apply Z.eqb_neq in Hc. rewrite Hc. destruct (nth_error (padded e (history m)) (Z.to_nat e)) as [x|] eqn:EX.
  2:{ apply nth_error_None in EX. rewrite pad_length in EX. lia. }
  eexists. split; [reflexivity|]. cbn [history val sum count avg]. split.
  - intros i. rewrite (put_at _ _ _ _ EX), pad_nth. f_equal. destruct (Nat.eqb_spec i (Z.to_nat e)) as [E|N], (Z.eqb_spec (Z.of_nat i) e) as [E'|N']; try reflexivity; lia.
  - assert (LX : (Z.to_nat e < length (padded e (history m)))%nat) by (apply nth_error_Some; congruence). split; [|auto]. rewrite app_length. cbn [length]. rewrite firstn_length, skipn_length. rewrite pad_length in LX |- *. lia.
Qed.

(* ---- a single meter ---- *)
Theorem meter_follows l : positive l ->
  (forall e, nth e (history (run_meter l)) [] = of_epoch e l) /\
  sum (run_meter l) = rsum (map (fun p => fst p * IZR (snd p)) (since_reset l)) /\
  IZR (count (run_meter l)) = rsum (map (fun p => IZR (snd p)) (since_reset l)) /\
  (0 <= count (run_meter l))%Z /\ (since_reset l <> [] -> (0 < count (run_meter l))%Z /\ avg (run_meter l) = weighted_mean (since_reset l)).
Proof.
  induction l as [|x l IH] using rev_ind; intros HP.
  - cbn. repeat split; try lia; try congruence. intros e. destruct e; reflexivity.
  - apply Forall_app in HP. destruct HP as (HP & HX). inversion HX as [|x' l' Hx _]; subst. destruct (IH HP) as (H1 & H2 & H3 & H4 & H5).
    unfold run_meter, since_reset, of_epoch in *. rewrite !fold_left_app. cbn [fold_left]. destruct x as [v n e|].
    + destruct Hx as (Hn & He). destruct (update_ok (fold_left (fun m x => match x with Updated v n e => fst (update_meter m v n e) | WasReset => reset_meter m end) l new_meter) v n e He ltac:(lia) ltac:(lia)) as (m' & E & U1 & U2 & U3 & U4 & U5 & U6). rewrite E. cbn [fst].
      assert (S1 : sum m' = rsum (map (fun p => fst p * IZR (snd p)) (fold_left (fun acc x => match x with Updated v n _ => acc ++ [(v, n)] | WasReset => [] end) l [] ++ [(v, n)]))) by (rewrite map_app, rsum_app; cbn [map fst snd]; rewrite rsum_cons, rsum_nil, U4, H2; lra).
      assert (C1 : IZR (count m') = rsum (map (fun p => IZR (snd p)) (fold_left (fun acc x => match x with Updated v n _ => acc ++ [(v, n)] | WasReset => [] end) l [] ++ [(v, n)]))) by (rewrite map_app, rsum_app; cbn [map fst snd]; rewrite rsum_cons, rsum_nil, U5, plus_IZR, H3; lra).
      split; [|split; [exact S1|split; [exact C1|split; [lia|]]]].
      * intros i. rewrite U1, H1, flat_map_app. f_equal. cbn [flat_map]. rewrite app_nil_r, Z.eqb_sym. reflexivity.
      * intros _. split; [lia|]. rewrite U6, S1, C1. reflexivity.
    + cbn [reset_meter history sum count]. split; [intros i; rewrite flat_map_app; cbn [flat_map]; rewrite !app_nil_r; apply H1|]. cbn. repeat split; try lia; congruence.
Qed.

(* ---- the collection ---- *)
Lemma log_value_spec preds ts now t stat : fst (log_value preds ts now t stat) = spec_value preds ts now t stat.
Proof. unfold log_value, spec_value. destruct (String.eqb stat "sec/it"); [destruct ts; reflexivity|]. cbn [fst]. destruct (get stat preds) as [[r|l]|]; reflexivity. Qed.
Definition logged (m : meter) (e : Z) (v : option R) : meter := match v with None => m | Some v => fst (update_meter m v 1 e) end.
Definition or_new (m : option meter) : meter := match m with Some m => m | None => new_meter end.
Lemma log_all_ok vars preds ts now e : (0 <= e)%Z -> NoDup vars -> forall d t, (forall k m, get k d = Some m -> (0 <= count m)%Z) -> NoDup (map fst d) ->
  exists d' t', log_all vars preds ts now e d t = (d', t', Ok tt) /\ NoDup (map fst d') /\
  (forall k, In k vars -> get k d' = Some (logged (or_new (get k d)) e (spec_value preds ts now t k))) /\
  (forall k, ~ In k vars -> get k d' = get k d) /\
  t' = match ts with Some _ => if existsb (String.eqb "sec/it") vars then Some now else t | None => t end.
Proof.
  intros He. induction vars as [|s vars IH]; intros ND d t HC NK.
  - exists d, t. cbn. split; [reflexivity|]. split; [exact NK|]. split; [intros k []|]. split; [reflexivity|]. destruct ts; reflexivity.
  - inversion ND as [|s' l' Hs HN]; subst. cbn [log_all]. pose proof (log_value_spec preds ts now t s) as LV. destruct (log_value preds ts now t s) as (v, t1) eqn:EL. cbn [fst] in LV.
    assert (T1 : t1 = match ts with Some _ => if String.eqb "sec/it" s then Some now else t | None => t end).
    { unfold log_value in EL. rewrite String.eqb_sym. destruct (String.eqb s "sec/it"); destruct ts; injection EL as _ <-; reflexivity. }
    assert (HM : (0 <= count (or_new (get s d)))%Z) by (destruct (get s d) as [m|] eqn:Eg; [exact (HC _ _ Eg)|cbn; lia]).
    assert (KV : forall k, In k vars -> spec_value preds ts now t1 k = spec_value preds ts now t k).
    { intros k Hk. unfold spec_value. destruct (String.eqb_spec k "sec/it") as [->|]; [|reflexivity]. destruct ts; [|reflexivity]. subst t1. destruct (String.eqb_spec "sec/it" s) as [E|]; [subst s; contradiction|reflexivity]. }
    assert (GO : forall m1, (0 <= count m1)%Z -> m1 = logged (or_new (get s d)) e v -> exists d' t', log_all vars preds ts now e (put s m1 d) t1 = (d', t', Ok tt) /\ NoDup (map fst d') /\
       (forall k, In k (s :: vars) -> get k d' = Some (logged (or_new (get k d)) e (spec_value preds ts now t k))) /\ (forall k, ~ In k (s :: vars) -> get k d' = get k d) /\
       t' = match ts with Some _ => if existsb (String.eqb "sec/it") (s :: vars) then Some now else t | None => t end).
    { intros m1 C1 E1. destruct (IH HN (put s m1 d) t1) as (d' & t' & E & K1 & K2 & K3 & K4).
      - intros k m Hm. destruct (string_dec k s) as [->|Nk]; [rewrite get_put_same in Hm; injection Hm as <-; exact C1|]. rewrite get_put_other in Hm by exact Nk. exact (HC _ _ Hm).
      - apply put_nodup. exact NK.
      - exists d', t'. split; [exact E|]. split; [exact K1|]. split; [|split].
        + intros k [<-|Hk].
          * rewrite K3 by exact Hs. rewrite get_put_same, E1, LV. reflexivity.
          * rewrite K2 by exact Hk. rewrite get_put_other by (intros ->; contradiction). rewrite KV by exact Hk. reflexivity.
        + intros k Hk. rewrite K3 by (intros C; apply Hk; right; exact C). apply get_put_other. intros ->. apply Hk. left. reflexivity.
        + rewrite K4, T1. destruct ts; [|reflexivity]. cbn [existsb]. destruct (String.eqb "sec/it" s); cbn [orb]; [destruct (existsb _ vars); reflexivity|reflexivity]. }
    destruct v as [v|].
    + destruct (update_ok (or_new (get s d)) v 1 e He ltac:(lia) ltac:(lia)) as (m' & E & _ & _ & _ & _ & U5 & _). cbv zeta. fold (or_new (get s d)). rewrite E. apply GO; [lia|]. cbn [logged]. rewrite E. reflexivity.
    + apply GO; [exact HM|reflexivity].
Qed.

Definition meter_ok (set stat : string) (t : trace) (m : meter) : Prop :=
  (forall e, nth e (history m) [] = values set stat (at_epoch (Z.of_nat e) (t_log t))) /\
  sum m = rsum (values set stat (t_recent t)) /\ count m = Z.of_nat (length (values set stat (t_recent t))) /\
  (values set stat (t_recent t) <> [] -> length (history m) = Z.to_nat (t_epoch t + 1) /\ avg m = rsum (values set stat (t_recent t)) / INR (length (values set stat (t_recent t)))) /\
  (length (history m) <= Z.to_nat (t_epoch t + 1))%nat.
Record follows (s : stats_obj) (t : trace) : Prop := {
  f_vars : log_vars s = t_vars t; f_grow : growable s = true; f_epoch : epoch s = t_epoch t; f_low : (-1 <= t_epoch t)%Z; f_nodup : NoDup (t_vars t);
  f_time : t_last_update s = t_time t;
  f_first : t_epoch t = (-1)%Z -> t_sets t = [] /\ t_log t = [] /\ t_recent t = [] /\ t_iters t = [];
  f_keys : NoDup (map fst (stats s)); f_sets : forall set, In set (map fst (stats s)) <-> In set (t_sets t);
  f_iters : incl (t_iters t) (t_sets t);
  f_it : forall set, In set (t_sets t) -> get set (it s) = Some (Z.of_nat (count_occ string_dec (t_iters t) set) - 1)%Z;
  f_stats : forall set d, get set (stats s) = Some d -> NoDup (map fst d) /\ forall stat, match get stat d with
     | Some m => meter_ok set stat t m | None => values set stat (t_log t) = [] /\ values set stat (t_recent t) = [] end;
  f_other : forall set, ~ In set (t_sets t) -> forall stat, values set stat (t_log t) = [] /\ values set stat (t_recent t) = [] }.

Lemma values_app set stat a b : values set stat (a ++ b) = values set stat a ++ values set stat b.
Proof. unfold values. rewrite filter_app, map_app. reflexivity. Qed.
Lemma at_epoch_app e a b : at_epoch e (a ++ b) = at_epoch e a ++ at_epoch e b.
Proof. apply filter_app. Qed.
Lemma entries_values t preds ts now set e set' stat : NoDup (t_vars t) -> values set' stat (entries t preds ts now set e) =
  if String.eqb set set' then if in_dec string_dec stat (t_vars t) then match spec_value preds ts now (t_time t) stat with Some v => [v] | None => [] end else [] else [].
Proof.
  unfold entries. set (tt := t_time t). induction (t_vars t) as [|x vars IH]; intros ND; [cbn; destruct (String.eqb set set'); reflexivity|].
  inversion ND as [|x' l' Hx HN]; subst. cbn [flat_map]. rewrite values_app, (IH HN). clear IH. destruct (String.eqb_spec set set') as [->|N].
  - destruct (string_dec x stat) as [->|Nx].
    + destruct (in_dec string_dec stat vars) as [C|_]; [contradiction|]. rewrite app_nil_r. destruct (in_dec string_dec stat (stat :: vars)) as [_|C]; [|exfalso; apply C; left; reflexivity].
      destruct (spec_value preds ts now tt stat); [|reflexivity]. unfold values. cbn. rewrite !String.eqb_refl. reflexivity.
    + assert (V0 : values set' stat match spec_value preds ts now tt x with Some v => [{| e_set := set'; e_stat := x; e_epoch := e; e_value := v |}] | None => [] end = []).
      { destruct (spec_value preds ts now tt x); [|reflexivity]. unfold values. cbn. apply String.eqb_neq in Nx. rewrite Nx, andb_false_r. reflexivity. }
      rewrite V0. cbn [app]. destruct (in_dec string_dec stat vars) as [I|I], (in_dec string_dec stat (x :: vars)) as [J|J]; try reflexivity.
      * exfalso. apply J. right. exact I.
      * destruct J as [J|J]; [contradiction|contradiction].
  - rewrite app_nil_r. destruct (spec_value preds ts now tt x); [|reflexivity]. unfold values. cbn. apply String.eqb_neq in N. rewrite N. reflexivity.
Qed.
Lemma entries_epoch t preds ts now set e e' : at_epoch e' (entries t preds ts now set e) = if (e =? e')%Z then entries t preds ts now set e else [].
Proof.
  unfold entries. induction (t_vars t) as [|x vars IH]; [destruct (e =? e')%Z; reflexivity|]. cbn [flat_map]. rewrite at_epoch_app, IH. destruct (spec_value preds ts now (t_time t) x); cbn [at_epoch filter e_epoch]; [|destruct (e =? e')%Z; reflexivity]. destruct (e =? e')%Z; reflexivity.
Qed.

Lemma follows_start vars e : NoDup vars -> (-1 <= e)%Z -> follows (new_stats vars true e) (start vars e).
Proof. intros ND He. constructor; cbn; auto; try tauto; try discriminate; try constructor. intros x []. Qed.
Lemma follows_reset s t e : follows s t -> (t_epoch t <= e)%Z -> (-1 < e)%Z \/ e = t_epoch t ->
  follows (reset {| log_vars := log_vars s; growable := growable s; epoch := e; stats := stats s; it := it s; t_last_update := t_last_update s |})
          {| t_vars := t_vars t; t_epoch := e; t_log := t_log t; t_recent := []; t_sets := t_sets t; t_iters := []; t_time := t_time t |}.
Proof.
  intros F He Hne. destruct F as [F1 F2 F3 F4 F5 F6 F7 F8 F9 FI F10 F11 F12]. constructor; cbn; auto.
  - lia.
  - intros E. assert (E2 : t_epoch t = (-1)%Z) by lia. destruct (F7 E2) as (A & B & _). auto.
  - rewrite map_map. exact F8.
  - intros set. rewrite map_map. apply F9.
  - intros x [].
  - intros set Hs. apply F9 in Hs. clear - Hs. induction (stats s) as [|(k, d) l IH]; [destruct Hs|]. cbn. destruct (String.eqb_spec set k); [reflexivity|]. apply IH. destruct Hs as [Hs|Hs]; [cbn in Hs; congruence|exact Hs].
  - intros set d Hd. rewrite get_map in Hd. destruct (get set (stats s)) as [d0|] eqn:E; [|discriminate]. injection Hd as <-. destruct (F11 set d0 E) as (N0 & H0). split; [rewrite map_map; exact N0|].
    intros stat. rewrite get_map. specialize (H0 stat). destruct (get stat d0) as [m|]; cbn [option_map].
    + destruct H0 as (M1 & M2 & M3 & M4 & M5). split; [exact M1|]. cbn. repeat split; try congruence. lia.
    + split; [apply H0|reflexivity].
  - intros set Hs stat. split; [apply F12; exact Hs|reflexivity].
Qed.
Lemma add_ok s t l : follows s t -> NoDup (t_vars t ++ l) -> (forall x, In x l -> ~ In x (t_sets t)) ->
  follows (fst (add_log_vars s l)) (tstep t (AddLogVars l)) /\ snd (add_log_vars s l) = Ok tt.
Proof.
  revert s t. induction l as [|x l IH]; intros s t F ND HS.
  - cbn [add_log_vars fst snd tstep]. split; [|reflexivity]. rewrite app_nil_r. destruct t; exact F.
  - cbn [add_log_vars]. assert (G0 : get x (stats s) = None) by (apply get_none; intros C; apply (f_sets _ _ F) in C; revert C; apply HS; left; reflexivity). rewrite G0, (f_grow _ _ F).
    set (s1 := {| log_vars := log_vars s ++ [x]; growable := true; epoch := epoch s; stats := stats s; it := it s; t_last_update := t_last_update s |}).
    set (t1 := tstep t (AddLogVars [x])).
    assert (F1 : follows s1 t1).
    { destruct F as [G1 G2 G3 G4 G5 G6 G7 G8 G9 GI G10 G11 G12]. constructor; cbn; auto; [congruence|]. rewrite (app_assoc (t_vars t) [x] l) in ND || (replace (x :: l) with ([x] ++ l) in ND by reflexivity; rewrite app_assoc in ND).
      clear - ND. revert ND. generalize (t_vars t ++ [x])%list. intros a ND. induction a as [|y a IHa]; [constructor|]. cbn in ND. inversion ND as [|y' l' N1 N2]; subst. constructor; [|apply IHa; exact N2]. intros C. apply N1. apply in_app_iff. left. exact C. }
    destruct (IH s1 t1 F1) as (IH1 & IH2).
    + cbn. rewrite <- app_assoc. exact ND.
    + intros y Hy. cbn. apply HS. right. exact Hy.
    + split; [|exact IH2]. replace (tstep t (AddLogVars (x :: l))) with (tstep t1 (AddLogVars l)); [exact IH1|]. unfold t1. cbn. rewrite <- app_assoc. reflexivity.
Qed.
Definition opt_list (v : option R) : list R := match v with Some v => [v] | None => [] end.
Lemma meter_logged set stat t t' m v e : meter_ok set stat t m -> t_epoch t = e -> t_epoch t' = e -> (0 <= e)%Z ->
  (forall e', values set stat (at_epoch e' (t_log t')) = values set stat (at_epoch e' (t_log t)) ++ (if (e' =? e)%Z then opt_list v else [])) ->
  values set stat (t_recent t') = values set stat (t_recent t) ++ opt_list v -> meter_ok set stat t' (logged m e v).
Proof.
  intros (M1 & M2 & M3 & M4 & M5) Et Et' He HL HR. destruct v as [v|]; cbn [logged opt_list] in *.
  - destruct (update_ok m v 1 e He ltac:(lia) ltac:(lia)) as (m' & E & U1 & U2 & U3 & U4 & U5 & U6). rewrite E. cbn [fst]. unfold meter_ok. rewrite HR, app_length, rsum_app. cbn [length].
    assert (LE : (Z.to_nat (t_epoch t + 1) = Z.to_nat (e + 1))%nat) by (rewrite Et; reflexivity).
    split; [|split; [|split; [|split]]].
    + intros i. rewrite U1, M1, HL. f_equal. destruct (Z.of_nat i =? e)%Z; [|reflexivity]. f_equal. field.
    + rewrite U4, M2, rsum_cons, rsum_nil. lra.
    + rewrite U5, M3. lia.
    + intros _. split; [rewrite U2, Et'; lia|]. rewrite U6, U4, M2, U5, M3, rsum_cons, rsum_nil. rewrite plus_INR, plus_IZR, <- INR_IZR_INZ. cbn [INR]. f_equal. lra.
    + rewrite U2, Et'. lia.
  - rewrite app_nil_r in HR. unfold meter_ok. rewrite HR, Et'. rewrite Et in M4, M5. split; [|auto]. intros i. rewrite HL, M1. destruct (_ =? _)%Z; rewrite app_nil_r; reflexivity.
Qed.
Lemma values_epoch set stat e l : values set stat l = [] -> values set stat (at_epoch e l) = [].
Proof.
  unfold values, at_epoch. induction l as [|x l IH]; [reflexivity|]. cbn. destruct (String.eqb (e_set x) set && String.eqb (e_stat x) stat)%bool eqn:E; [discriminate|]. intros H. destruct (e_epoch x =? e)%Z; cbn; [rewrite E|]; auto.
Qed.
Lemma new_meter_ok set stat t : values set stat (t_log t) = [] -> values set stat (t_recent t) = [] -> meter_ok set stat t new_meter.
Proof. intros H1 H2. unfold meter_ok. rewrite H2. cbn. split; [intros e; rewrite values_epoch by exact H1; destruct e; reflexivity|]. repeat split; try congruence. lia. Qed.
Lemma count_occ_notin l x : ~ In x l -> count_occ string_dec l x = 0%nat.
Proof. apply count_occ_not_In. Qed.
Lemma update_follows_late s t preds ts now f set : follows s t -> (0 <= t_epoch t)%Z ->
  follows (fst (update s preds ts now f set)) (tstep t (Update preds ts now f set)) /\ snd (update s preds ts now f set) = Ok tt.
Proof.
  intros F He. pose proof F as F'. destruct F as [F1 F2 F3 F4 F5 F6 F7 F8 F9 FI F10 F11 F12]. unfold update, tstep. rewrite F3. destruct (Z.eqb_spec (t_epoch t) (-1)) as [C|_]; [lia|].
  set (e := t_epoch t) in *. set (d0 := match get set (stats s) with Some d => d | None => [] end). set (i0 := (Z.of_nat (count_occ string_dec (t_iters t) set) - 1)%Z).
  assert (E0 : match get set (stats s) with Some d => (d, match get set (it s) with Some i => i | None => (-1)%Z end) | None => ([], (-1)%Z) end = (d0, i0)).
  { unfold d0. destruct (get set (stats s)) as [d|] eqn:E.
    - assert (I : In set (t_sets t)). { apply F9. destruct (in_dec string_dec set (map fst (stats s))) as [I|I]; [exact I|]. apply get_none in I. congruence. } rewrite (F10 set I). reflexivity.
    - f_equal. unfold i0. rewrite count_occ_notin; [reflexivity|]. intros I. apply FI, F9 in I. revert I. apply get_none. exact E. }
  rewrite E0.
  assert (D0 : NoDup (map fst d0) /\ forall stat, meter_ok set stat t (or_new (get stat d0)) /\ (get stat d0 = None -> values set stat (t_log t) = [] /\ values set stat (t_recent t) = [])).
  { unfold d0. destruct (get set (stats s)) as [d|] eqn:E.
    - destruct (F11 set d E) as (N0 & H0). split; [exact N0|]. intros stat. specialize (H0 stat). destruct (get stat d) as [m|]; cbn [or_new]; [split; [exact H0|discriminate]|]. split; [apply new_meter_ok; apply H0|intros _; exact H0].
    - split; [constructor|]. intros stat. cbn [get or_new]. assert (NS : ~ In set (t_sets t)) by (intros I; apply F9 in I; revert I; apply get_none; exact E). destruct (F12 set NS stat) as (A & B). split; [apply new_meter_ok; assumption|auto]. }
  destruct D0 as (ND0 & HD0). rewrite F1, F3.
  destruct (log_all_ok (t_vars t) preds ts now e He F5 d0 (t_last_update s)) as (d' & t' & EL & K1 & K2 & K3 & K4); [|exact ND0|].
  { intros k m Hm. destruct (HD0 k) as ((_ & _ & M3 & _) & _). rewrite Hm in M3. cbn [or_new] in M3. lia. }
  rewrite EL. cbn [fst snd]. split; [|reflexivity]. rewrite F6 in K2, K4.
  set (new := entries t preds ts now set e).
  assert (V1 : forall set' stat l, values set' stat (l ++ new) = values set' stat l ++ (if String.eqb set set' then if in_dec string_dec stat (t_vars t) then opt_list (spec_value preds ts now (t_time t) stat) else [] else [])).
  { intros set' stat l. rewrite values_app. f_equal. unfold new. rewrite entries_values by exact F5. reflexivity. }
  assert (V2 : forall set' stat l e', values set' stat (at_epoch e' (l ++ new)) = values set' stat (at_epoch e' l) ++ (if (e' =? e)%Z then if String.eqb set set' then if in_dec string_dec stat (t_vars t) then opt_list (spec_value preds ts now (t_time t) stat) else [] else [] else [])).
  { intros set' stat l e'. rewrite at_epoch_app, values_app. f_equal. unfold new. rewrite entries_epoch. rewrite Z.eqb_sym. destruct (e' =? e)%Z; [|reflexivity]. rewrite entries_values by exact F5. reflexivity. }
  constructor; cbn [log_vars growable epoch stats it t_last_update t_vars t_epoch t_log t_recent t_sets t_iters t_time]; try assumption; auto.
  - intros C. lia.
  - apply put_nodup. exact F8.
  - intros x. rewrite put_keys, in_app_iff, F9. cbn. intuition congruence.
  - intros x Hx. apply in_app_iff in Hx. apply in_app_iff. destruct Hx as [Hx|Hx]; [left; apply FI; exact Hx|right; destruct f; [destruct Hx|exact Hx]].
  - intros x Hx. rewrite count_occ_app. destruct (string_dec x set) as [->|Nx].
    + rewrite get_put_same. f_equal. unfold i0. destruct f; cbn [count_occ]; [lia|]. destruct (string_dec set set); [lia|congruence].
    + rewrite get_put_other by exact Nx. rewrite F10; [|apply in_app_iff in Hx; destruct Hx as [Hx|[Hx|[]]]; [exact Hx|congruence]]. f_equal. destruct f; cbn [count_occ]; [lia|]. destruct (string_dec set x); [congruence|lia].
  - intros x d Hd. destruct (string_dec x set) as [->|Nx].
    + rewrite get_put_same in Hd. injection Hd as <-. split; [exact K1|]. intros stat. destruct (HD0 stat) as (HM & HN). destruct (in_dec string_dec stat (t_vars t)) as [I|I].
      * rewrite (K2 stat I). apply (meter_logged set stat t); auto; cbn [t_log t_recent].
        -- intros e'. rewrite V2, String.eqb_refl. destruct (in_dec string_dec stat (t_vars t)); [reflexivity|contradiction].
        -- rewrite V1, String.eqb_refl. destruct (in_dec string_dec stat (t_vars t)); [reflexivity|contradiction].
      * rewrite (K3 stat I). assert (Z1 : forall l, values set stat (l ++ new) = values set stat l) by (intros l; rewrite V1, String.eqb_refl; destruct (in_dec string_dec stat (t_vars t)); [contradiction|apply app_nil_r]).
        destruct (get stat d0) as [m|]; cbn [or_new] in HM.
        -- apply (meter_logged set stat t _ m None e HM); auto; cbn [t_log t_recent opt_list].
           ++ intros e'. rewrite V2, String.eqb_refl. destruct (in_dec string_dec stat (t_vars t)); [contradiction|]. reflexivity.
           ++ rewrite Z1, app_nil_r. reflexivity.
        -- cbn [t_log t_recent]. rewrite !Z1. apply HN. reflexivity.
    + rewrite get_put_other in Hd by exact Nx. destruct (F11 x d Hd) as (N0 & H0). split; [exact N0|]. intros stat. specialize (H0 stat). assert (EX : String.eqb set x = false) by (apply String.eqb_neq; congruence).
      destruct (get stat d) as [m|].
      * apply (meter_logged x stat t _ m None e H0); auto; cbn [t_log t_recent opt_list].
        -- intros e'. rewrite V2, EX. reflexivity.
        -- rewrite V1, EX. reflexivity.
      * cbn [t_log t_recent]. rewrite !V1, EX, !app_nil_r. exact H0.
  - intros x Hx stat. cbn [t_log t_recent]. assert (NS : ~ In x (t_sets t) /\ x <> set) by (split; intros C; apply Hx; apply in_app_iff; [left; exact C|right; left; symmetry; exact C]).
    assert (EX : String.eqb set x = false) by (apply String.eqb_neq; intros C; apply NS; symmetry; exact C). rewrite !V1, EX, !app_nil_r. apply F12. apply NS.
Qed.
Lemma update_follows s t preds ts now f set : follows s t ->
  follows (fst (update s preds ts now f set)) (tstep t (Update preds ts now f set)) /\ snd (update s preds ts now f set) = Ok tt.
Proof.
  intros F. destruct (Z.eq_dec (t_epoch t) (-1)) as [E|N]; [|apply update_follows_late; [exact F|pose proof (f_low _ _ F); lia]].
  pose proof (follows_reset s t (epoch s + 1)%Z F) as FR. rewrite (f_epoch _ _ F) in FR. specialize (FR ltac:(lia) ltac:(lia)).
  set (t1 := {| t_vars := t_vars t; t_epoch := (t_epoch t + 1)%Z; t_log := t_log t; t_recent := []; t_sets := t_sets t; t_iters := []; t_time := t_time t |}) in FR.
  assert (ES : update s preds ts now f set = update (new_epoch s) preds ts now f set).
  { assert (Es : epoch s = (-1)%Z) by (rewrite (f_epoch _ _ F); exact E). clear -Es. destruct s as [a b e c d g]. cbn in Es. subst e. reflexivity. }
  assert (ET : tstep t (Update preds ts now f set) = tstep t1 (Update preds ts now f set)).
  { unfold tstep, t1, entries. cbn. rewrite E. reflexivity. }
  rewrite ES, ET. apply update_follows_late; [|cbn; lia]. unfold new_epoch. rewrite (f_epoch _ _ F). exact FR.
Qed.
Lemma step_follows s t c : follows s t -> sensible t [c] -> follows (step s c) (tstep t c).
Proof.
  intros F (HS & _). destruct c as [| |e|l|preds ts now f set]; cbn [step].
  - unfold new_epoch. rewrite (f_epoch _ _ F). apply follows_reset; [exact F|lia|]. pose proof (f_low _ _ F). lia.
  - pose proof (follows_reset s t (t_epoch t) F ltac:(lia) ltac:(lia)) as H. cbn [tstep]. rewrite <- (f_epoch _ _ F) in H at 1. destruct s; exact H.
  - destruct F as [F1 F2 F3 F4 F5 F6 F7 F8 F9 FI F10 F11 F12]. constructor; cbn; auto; try tauto; try discriminate; try constructor. intros x [].
  - apply add_ok; [exact F|apply HS|apply HS].
  - apply update_follows. exact F.
Qed.
Theorem run_follows vars e cs : NoDup vars -> (-1 <= e)%Z -> sensible (start vars e) cs ->
  follows (fold_left step cs (new_stats vars true e)) (fold_left tstep cs (start vars e)).
Proof.
  intros ND He. assert (K : forall cs s t, follows s t -> sensible t cs -> follows (fold_left step cs s) (fold_left tstep cs t)).
  { clear. induction cs as [|c cs IH]; intros s t F HS; [exact F|]. cbn [fold_left]. destruct HS as (H1 & H2). apply IH; [|exact H2]. apply step_follows; [exact F|]. split; [exact H1|exact I]. }
  apply K. apply follows_start; assumption.
Qed.
(* without calls of reset() the recent values are those of the current epoch *)
Definition no_reset (c : call) : Prop := match c with Reset => False | _ => True end.
Lemma recent_current t : forall cs, (t_recent t = at_epoch (t_epoch t) (t_log t) /\ (forall x, In x (t_log t) -> (e_epoch x <= t_epoch t)%Z) /\ (-1 <= t_epoch t)%Z /\ (t_epoch t = (-1)%Z -> t_log t = [])) -> List.Forall no_reset cs -> sensible t cs ->
  let t' := fold_left tstep cs t in t_recent t' = at_epoch (t_epoch t') (t_log t') /\ (forall x, In x (t_log t') -> (e_epoch x <= t_epoch t')%Z).
Proof.
  intros cs. revert t. induction cs as [|c cs IH]; intros t (H1 & H2 & H3 & H4) HF HS; [split; assumption|]. inversion HF as [|c' l' Hc HF']; subst. destruct HS as (S1 & S2). cbn [fold_left]. apply IH; [|exact HF'|exact S2].
  destruct c as [| |e|l|preds ts now f set]; cbn [tstep t_recent t_log t_epoch]; try contradiction.
  - assert (E0 : forall l, (forall x, In x l -> (e_epoch x <= t_epoch t)%Z) -> at_epoch (t_epoch t + 1) l = []).
    { induction l as [|x l IHl]; intros H; [reflexivity|]. cbn. destruct (Z.eqb_spec (e_epoch x) (t_epoch t + 1)) as [E|_]; [specialize (H x (or_introl eq_refl)); lia|]. apply IHl. intros; apply H; right; assumption. }
    rewrite (E0 _ H2). split; [reflexivity|]. split; [intros x Hx; apply H2 in Hx; lia|]. split; [lia|]. lia.
  - split; [reflexivity|]. split; [intros x []|]. split; [exact S1|reflexivity].
  - auto.
  - set (e := if (t_epoch t =? -1)%Z then 0%Z else t_epoch t). assert (EE : forall x, In x (entries t preds ts now set e) -> e_epoch x = e).
    { intros x Hx. unfold entries in Hx. apply in_flat_map in Hx. destruct Hx as (k & _ & Hx). destruct (spec_value _ _ _ _ k); [destruct Hx as [<-|[]]; reflexivity|destruct Hx]. }
    split; [|split; [|split]].
    + rewrite at_epoch_app, entries_epoch, Z.eqb_refl. f_equal. unfold e. destruct (Z.eqb_spec (t_epoch t) (-1)) as [E|N]; [rewrite (H4 E); reflexivity|exact H1].
    + intros x Hx. apply in_app_iff in Hx. destruct Hx as [Hx|Hx]; [|rewrite (EE x Hx); lia]. apply H2 in Hx. unfold e. destruct (Z.eqb_spec (t_epoch t) (-1)); lia.
    + unfold e. destruct (Z.eqb_spec (t_epoch t) (-1)); lia.
    + unfold e. destruct (Z.eqb_spec (t_epoch t) (-1)); lia.
Qed.

(* ---- get_epoch_averages ---- *)
Lemma get_rmap {A B} (f : A -> result B) d out : rmap (fun q => b <- f (snd q) ;; Ok (fst q, b)) d = Ok out -> forall k,
  match get k d with Some a => exists b, f a = Ok b /\ get k out = Some b | None => get k out = None end.
Proof.
  revert out. induction d as [|(k', a) d IH]; intros out E k.
  - cbn in E. injection E as <-. reflexivity.
  - cbn [rmap fst snd] in E. destruct (f a) as [b|] eqn:Eb; [|discriminate]. cbn [rbind] in E. destruct (rmap _ d) as [out'|] eqn:E'; [|discriminate]. cbn [rbind] in E. injection E as <-. cbn [get fst snd]. destruct (String.eqb k k'); [exists b; auto|]. apply (IH out' eq_refl).
Qed.
Lemma get_filter {A} (p : A -> bool) k d : NoDup (map fst d) -> get k (filter (fun q => p (snd q)) d) = match get k d with Some a => if p a then Some a else None | None => None end.
Proof.
  induction d as [|(k', a) d IH]; cbn [map fst]; intros H; [reflexivity|]. inversion H as [|x l H1 H2]; subst. cbn [filter snd]. destruct (p a) eqn:Ep; cbn [get].
  - destruct (String.eqb k k'); [rewrite Ep; reflexivity|apply IH; exact H2].
  - rewrite IH by exact H2. destruct (String.eqb_spec k k') as [->|]; [|reflexivity]. rewrite Ep. apply get_none in H1. rewrite H1. reflexivity.
Qed.
Lemma nth_nth {A} (h : list (list A)) e : (e < length h)%nat -> nth_error h e = Some (nth e h []).
Proof. intros H. apply nth_error_nth'. exact H. Qed.
Lemma averages_one set stat t m e : meter_ok set stat t m -> values set stat (t_recent t) <> [] -> (0 <= e <= t_epoch t)%Z -> (0 <= t_epoch t)%Z ->
  stat_averages (t_epoch t) e m = Ok (Some (One (mean (values set stat (at_epoch e (t_log t)))))).
Proof.
  intros (M1 & M2 & M3 & M4 & M5) HR He H0. destruct (M4 HR) as (ML & _). unfold stat_averages. destruct (Z.eqb_spec e (-1)); [lia|]. unfold meter_averages. destruct (history m) as [|x h] eqn:EH; [cbn in ML; lia|]. rewrite <- EH in *.
  destruct (Z.eqb_spec e (-1)); [lia|]. unfold py_index. destruct (Z.leb_spec 0 e); [|lia]. destruct (Z.ltb_spec e (Z.of_nat (length (history m)))); [|lia]. rewrite nth_nth by lia. rewrite M1, Z2Nat.id by lia. reflexivity.
Qed.
Lemma pick_ok l : forall es, (forall e, In e es -> (e < length l)%nat) -> pick l es = Ok (map (fun e => nth e l None) es).
Proof.
  unfold pick. induction es as [|e es IH]; intros H; [reflexivity|]. cbn [rmap map]. rewrite (nth_error_nth' l None) by (apply H; left; reflexivity). cbn [rbind]. rewrite IH by (intros; apply H; right; assumption). reflexivity.
Qed.
Lemma averages_many set stat t m : meter_ok set stat t m -> values set stat (t_recent t) <> [] -> (0 <= t_epoch t)%Z ->
  stat_averages (t_epoch t) (-1) m = Ok (Some (Many (map (fun e => mean (values set stat (at_epoch (Z.of_nat e) (t_log t)))) (seq 0 (Z.to_nat (t_epoch t)))))).
Proof.
  intros (M1 & M2 & M3 & M4 & M5) HR H0. destruct (M4 HR) as (ML & _). unfold stat_averages. change (-1 =? -1)%Z with true. cbv iota. unfold meter_averages. destruct (history m) as [|x h] eqn:EH; [cbn in ML; lia|]. rewrite <- EH in *. change (-1 =? -1)%Z with true. cbn [rbind].
  rewrite pick_ok; [|intros e He; apply in_seq in He; rewrite map_length; lia]. cbn [rbind]. do 3 f_equal. apply map_ext_in. intros e He. apply in_seq in He. rewrite <- M1. change (@None R) with (mean []). apply map_nth.
Qed.
Theorem averages_ok s t e : follows s t -> (0 <= t_epoch t)%Z -> (e = -1 \/ 0 <= e <= t_epoch t)%Z ->
  exists out, get_epoch_averages s (Some e) = Ok out /\ forall set, match get set out with
    | None => ~ In set (t_sets t)
    | Some (i, rows) => In set (t_sets t) /\ i = Some (Z.of_nat (count_occ string_dec (t_iters t) set) - 1)%Z /\
        forall stat, get stat rows = match values set stat (t_recent t) with [] => None | _ =>
          Some (Some (if (e =? -1)%Z then Many (map (fun e => mean (values set stat (at_epoch (Z.of_nat e) (t_log t)))) (seq 0 (Z.to_nat (t_epoch t)))) else One (mean (values set stat (at_epoch e (t_log t)))))) end
    end.
Proof.
  intros F H0 He. unfold get_epoch_averages. rewrite (f_epoch _ _ F).
  set (want := fun set stat => Some (if (e =? -1)%Z then Many (map (fun e => mean (values set stat (at_epoch (Z.of_nat e) (t_log t)))) (seq 0 (Z.to_nat (t_epoch t)))) else One (mean (values set stat (at_epoch e (t_log t)))))).
  assert (SA : forall set stat m, meter_ok set stat t m -> values set stat (t_recent t) <> [] -> stat_averages (t_epoch t) e m = Ok (want set stat)).
  { intros set stat m HM HV. unfold want. destruct (Z.eqb_spec e (-1)) as [->|N]; [eapply averages_many; eassumption|apply averages_one; [assumption|assumption|lia|exact H0]]. }
  set (rowsof := fun (q : list (string * meter)) => rmap (fun q => a <- stat_averages (t_epoch t) e (snd q) ;; Ok (fst q, a)) (filter (fun q => negb (count (snd q) =? 0)%Z) q)).
  assert (ROWS : forall set d, get set (stats s) = Some d -> exists rows, rowsof d = Ok rows /\ forall stat, get stat rows = match values set stat (t_recent t) with [] => None | _ => Some (want set stat) end).
  { intros set d Hd. destruct (f_stats _ _ F set d Hd) as (ND & HM).
    assert (HF : forall q, In q (filter (fun q => negb (count (snd q) =? 0)%Z) d) -> exists a, stat_averages (t_epoch t) e (snd q) = Ok a).
    { intros (stat, m) Hq. apply filter_In in Hq. cbn [snd] in *. destruct Hq as (Hq & Hc). apply (get_in stat m d ND) in Hq. specialize (HM stat). rewrite Hq in HM. exists (want set stat). apply SA; [exact HM|]. destruct HM as (_ & _ & M3 & _). intros E. rewrite E in M3. rewrite M3 in Hc. discriminate. }
    assert (EX : exists rows, rowsof d = Ok rows).
    { unfold rowsof. revert HF. generalize (filter (fun q : string * meter => negb (count (snd q) =? 0)%Z) d). induction l as [|q l IH]; intros HF; [exists []; reflexivity|]. cbn [rmap]. destruct (HF q (or_introl eq_refl)) as (a & Ea). rewrite Ea. cbn [rbind]. destruct IH as (rows & Er); [intros; apply HF; right; assumption|]. rewrite Er. eexists. reflexivity. }
    destruct EX as (rows & ER). exists rows. split; [exact ER|]. intros stat. pose proof (get_rmap (stat_averages (t_epoch t) e) _ _ ER stat) as G. rewrite (get_filter (fun m => negb (count m =? 0)%Z)) in G by exact ND. specialize (HM stat).
    destruct (get stat d) as [m|].
    - pose proof HM as HM'. destruct HM as (_ & _ & M3 & _). destruct (values set stat (t_recent t)) as [|r l] eqn:EV.
      + rewrite M3 in G. exact G.
      + rewrite M3 in G. cbn [length] in G. destruct (Z.eqb_spec (Z.of_nat (S (length l))) 0) as [C|_]; [lia|]. cbn [negb] in G. destruct G as (b & E1 & E2). rewrite (SA set stat m HM') in E1 by (rewrite EV; discriminate). injection E1 as <-. exact E2.
    - destruct HM as (_ & V). rewrite V. exact G. }
  assert (EX : exists out, rmap (fun p => rows <- rowsof (snd p) ;; Ok (fst p, (get (fst p) (it s), rows))) (stats s) = Ok out /\ forall set, get set out = match get set (stats s) with Some d => match rowsof d with Ok rows => Some (get set (it s), rows) | Fail _ => None end | None => None end).
  { assert (HF : forall p, In p (stats s) -> exists rows, rowsof (snd p) = Ok rows).
    { intros (set, d) Hp. apply (get_in set d _ (f_keys _ _ F)) in Hp. destruct (ROWS set d Hp) as (rows & Er & _). exists rows. exact Er. }
    clear ROWS. revert HF. generalize (it s). intros its. induction (stats s) as [|(k, d) l IH]; intros HF; [exists []; split; reflexivity|]. cbn [rmap fst snd]. destruct (HF (k, d) (or_introl eq_refl)) as (rows & Er). cbn [snd] in Er. rewrite Er. cbn [rbind].
    destruct IH as (out & Eo & Ho); [intros; apply HF; right; assumption|]. rewrite Eo. eexists. split; [reflexivity|]. intros set. cbn [get]. destruct (String.eqb_spec set k) as [->|]; [rewrite Er; reflexivity|apply Ho]. }
  destruct EX as (out & EO & HO). exists out. split; [exact EO|]. intros set. rewrite HO. destruct (get set (stats s)) as [d|] eqn:Ed.
  - destruct (ROWS set d Ed) as (rows & Er & HR). rewrite Er. assert (I : In set (t_sets t)). { apply (f_sets _ _ F). destruct (in_dec string_dec set (map fst (stats s))) as [I|I]; [exact I|]. apply get_none in I. congruence. }
    split; [exact I|]. split; [apply (f_it _ _ F); exact I|exact HR].
  - intros I. apply (f_sets _ _ F) in I. revert I. apply get_none. exact Ed.
Qed.
