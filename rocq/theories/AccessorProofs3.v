From Coq Require Import String.
From Verif Require Import Base RBase Tens Accessor AccessorSpec AccessorProofs AccessorProofs2.
Local Open Scope nat_scope.

(* reading only looks at the object and its blocks *)
Lemma getitem_same st st' c : nth_error (objects st') c = nth_error (objects st) c ->
  (forall ob b, nth_error (objects st) c = Some ob -> In b (blocks (attrs ob)) -> nth_error (memory st') b = nth_error (memory st) b) ->
  forall ix name, getitem st' c ix name = getitem st c ix name.
Proof.
  intros E M ix name. unfold getitem. rewrite E. destruct (nth_error (objects st) c) as [ob|] eqn:N; [|reflexivity].
  destruct (lookup ob name) as [[v|]|] eqn:L; try reflexivity. rewrite (M ob (block v) eq_refl (look_block _ _ _ L)). reflexivity.
Qed.
Lemma nth_app_old {A} (l e : list A) i : i < List.length l -> nth_error (l ++ e) i = nth_error l i.
Proof. intros. now rewrite nth_error_app1. Qed.

(* what a step leaves alone *)
Lemma frame_step st x st' c : good st -> owns st c -> step st x = Ok st' -> changes c x = false ->
  nth_error (objects st') c = nth_error (objects st) c /\
  forall ob b, nth_error (objects st) c = Some ob -> In b (blocks (attrs ob)) -> nth_error (memory st') b = nth_error (memory st) b.
Proof.
  intros G (obc & NC & ND & OWN) H CH. pose proof G as (G1 & G2). pose proof (nth_len _ _ _ NC) as LC.
  destruct x as [kw|o ix name value|o|o idx|t|k f]; cbn [step changes] in H, CH.
  - destruct (construct_mem _ _ _ H) as (e & ob & M & O & HD & B). rewrite O, M. split; [now apply nth_app_old|]. intros ob' b N I. apply nth_app_old. exact (G1 _ _ _ N I).
  - destruct (setitem_mem _ _ _ _ _ _ H) as (ob & v & t & t' & NO & L & N & M & O & HD & _). rewrite O, M. split; [reflexivity|]. intros ob' b N' I. rewrite NC in N'. injection N' as <-.
    rewrite update_nth by (eapply nth_len; exact N). destruct (Nat.eqb_spec b (block v)) as [->|]; [|reflexivity]. exfalso.
    apply Nat.eqb_neq in CH. destruct (OWN _ I) as (_ & H2). exact (H2 _ _ CH NO (look_block _ _ _ L)).
  - destruct (clone_mem _ _ _ H) as (e & ob & M & O & HD & _ & _ & B). rewrite O, M. split; [now apply nth_app_old|]. intros ob' b N I. apply nth_app_old. exact (G1 _ _ _ N I).
  - destruct (gather_mem _ _ _ _ G H) as (e & ob & ob' & N & M & O & HD & _ & _ & _ & B). rewrite O, M. apply Nat.eqb_neq in CH. split.
    + rewrite update_nth by (eapply nth_len; exact N). destruct (Nat.eqb_spec c o); [congruence|reflexivity].
    + intros ob2 b N2 I. apply nth_app_old. exact (G1 _ _ _ N2 I).
  - injection H as <-. cbn. split; [reflexivity|]. intros ob b N I. apply nth_app_old. exact (G1 _ _ _ N I).
  - destruct (overwrite_mem _ _ _ _ H) as (b & t & t' & NH & N & M & O & HD & _). rewrite O, M. split; [reflexivity|]. intros ob b' N' I. rewrite NC in N'. injection N' as <-.
    rewrite update_nth by (eapply nth_len; exact N). destruct (Nat.eqb_spec b' b) as [->|]; [|reflexivity]. exfalso. destruct (OWN _ I) as (H1 & _). apply H1. eapply nth_error_In; exact NH.
Qed.
Lemma untouched_run xs c : forall st, good st -> owns st c -> forallb (fun x => negb (changes c x)) xs = true ->
  forall ix name, getitem (run st xs) c ix name = getitem st c ix name.
Proof.
  induction xs as [|x xs IH]; intros st G O F ix name; [reflexivity|]. cbn [forallb] in F. apply andb_prop in F. destruct F as (F1 & F2). apply negb_true_iff in F1.
  unfold run. cbn [fold_left]. change (fold_left next xs (next st x)) with (run (next st x) xs). unfold next. destruct (step st x) as [s|] eqn:E; [|now apply IH].
  rewrite IH; [|eapply good_step; eassumption|eapply owns_step; eassumption|exact F2]. destruct (frame_step _ _ _ _ G O E F1) as (H1 & H2). now apply getitem_same.
Qed.

(* changing c leaves the other objects and the user's tensors alone *)
Lemma only_step st x st' c : good st -> owns st c -> step st x = Ok st' -> changes c x = true ->
  (forall o ix name, o <> c -> getitem st' o ix name = getitem st o ix name) /\ (forall k, tensor_of st' k = tensor_of st k).
Proof.
  intros G (obc & NC & ND & OWN) H CH. pose proof G as (G1 & G2).
  assert (K : held st' = held st /\ (forall o, o <> c -> nth_error (objects st') o = nth_error (objects st) o) /\
    forall b, b < List.length (memory st) -> ~ In b (blocks (attrs obc)) -> nth_error (memory st') b = nth_error (memory st) b).
  { destruct x as [kw|o ix name value|o|o idx|t|k f]; cbn [step changes] in H, CH; try discriminate CH; apply Nat.eqb_eq in CH; subst o.
    - destruct (setitem_mem _ _ _ _ _ _ H) as (ob & v & t & t' & NO & L & N & M & O & HD & _). rewrite O, M. split; [exact HD|]. split; [reflexivity|].
      rewrite NC in NO. injection NO as <-. intros b LB NB. rewrite update_nth by (eapply nth_len; exact N). destruct (Nat.eqb_spec b (block v)) as [->|]; [|reflexivity]. exfalso. exact (NB (look_block _ _ _ L)).
    - destruct (gather_mem _ _ _ _ G H) as (e & ob & ob' & N & M & O & HD & _ & _ & _ & B). rewrite O, M. split; [exact HD|]. split.
      + intros o NE. rewrite update_nth by (eapply nth_len; exact N). destruct (Nat.eqb_spec o c); [congruence|reflexivity].
      + intros b LB _. now apply nth_app_old. }
  destruct K as (HD & KO & KM). split.
  - intros o ix name NE. apply getitem_same; [now apply KO|]. intros ob b N I. apply KM; [exact (G1 _ _ _ N I)|]. intros J. destruct (OWN _ J) as (_ & H2). exact (H2 _ _ NE N I).
  - intros k. unfold tensor_of, content. rewrite HD. destruct (nth_error (held st) k) as [b|] eqn:NH; [|reflexivity]. pose proof (nth_error_In _ _ NH) as IB. apply KM; [exact (G2 _ IB)|]. intros J. destruct (OWN _ J) as (H1 & _). exact (H1 IB).
Qed.
Lemma only_run xs c : forall st, good st -> owns st c -> forallb (changes c) xs = true ->
  (forall o ix name, o <> c -> getitem (run st xs) o ix name = getitem st o ix name) /\ (forall k, tensor_of (run st xs) k = tensor_of st k).
Proof.
  induction xs as [|x xs IH]; intros st G O F; [now split|]. cbn [forallb] in F. apply andb_prop in F. destruct F as (F1 & F2).
  unfold run. cbn [fold_left]. change (fold_left next xs (next st x)) with (run (next st x) xs). unfold next. destruct (step st x) as [s|] eqn:E; [|now apply IH].
  destruct (only_step _ _ _ _ G O E F1) as (A & B). destruct (IH s (good_step _ _ _ G E) (owns_step _ _ _ _ G O E) F2) as (A' & B'). split.
  - intros o ix name NE. rewrite A' by exact NE. now apply A.
  - intros k. now rewrite B', B.
Qed.

(* ---- indices ---- *)
Lemma span_elem n i : i < n -> span n (elem i) = Ok (i, 1).
Proof.
  intros H. unfold span, elem. replace ((- Z.of_nat n <=? Z.of_nat i) && (Z.of_nat i <? Z.of_nat n))%Z with true.
  - rewrite Z.mod_small by lia. now rewrite Nat2Z.id.
  - symmetry. apply andb_true_intro. split; [apply Z.leb_le|apply Z.ltb_lt]; lia.
Qed.
Lemma span_elem_out n i : n <= i -> span n (elem i) = Fail EIndex.
Proof.
  intros H. unfold span, elem. replace ((Z.of_nat i <? Z.of_nat n)%Z) with false by (symmetry; apply Z.ltb_ge; lia). now rewrite andb_false_r.
Qed.
Lemma span_range n ix s m : span n ix = Ok (s, m) -> s + m <= n \/ m = 0.
Proof.
  destruct ix as [z|a b]; cbn.
  - destruct (_ && _)%bool eqn:E; [|discriminate]. intros H. injection H as <- <-. apply andb_prop in E. destruct E as (E1 & E2). apply Z.leb_le in E1. apply Z.ltb_lt in E2.
    left. assert (n <> 0) by lia. pose proof (Z.mod_pos_bound z (Z.of_nat n) ltac:(lia)). lia.
  - intros H. injection H as <- <-. unfold bound. set (e := match b with None => _ | Some _ => _ end). lia.
Qed.

(* ---- assignment ---- *)
Lemma strip_app s : exists k, s = repeat 1 k ++ strip s /\ List.length s = k + List.length (strip s).
Proof.
  induction s as [|d s (k & IH & L)]; [exists 0; split; reflexivity|]. cbn [strip]. destruct (Nat.eqb_spec d 1) as [->|].
  - exists (S k). cbn. split; [now rewrite <- IH|lia].
  - exists 0. split; reflexivity.
Qed.
Lemma pick_aligned s : forall idx jdx, List.length idx = List.length s -> Forall2 lt jdx s ->
  (forall k d j i, nth_error s k = Some d -> nth_error jdx k = Some j -> nth_error idx k = Some i -> d = 1 \/ j = i) ->
  map (fun p => if fst p =? 1 then 0 else snd p) (combine s idx) = jdx.
Proof.
  induction s as [|d s IH]; intros [|i idx] jdx L F A; try discriminate L.
  - inversion F. reflexivity.
  - inversion F as [|j ? jdx' ? Hj F']; subst. cbn. f_equal.
    + destruct (Nat.eqb_spec d 1) as [->|N]; [lia|]. destruct (A 0 d j i eq_refl eq_refl eq_refl); [contradiction|congruence].
    + apply IH; [now injection L|exact F'|]. intros k d' j' i' H1 H2 H3. exact (A (S k) d' j' i' H1 H2 H3).
Qed.
Lemma fits_len s dst : fits s dst = true -> List.length s <= List.length dst.
Proof. unfold fits. intros H. apply andb_prop in H. apply Nat.leb_le, H. Qed.
Lemma assigned_entry value dst idx jdx : fits (strip (shp value)) dst = true -> Forall2 lt idx dst -> Forall2 lt jdx (shp value) ->
  goes_to (shp value) jdx idx -> get (stripped value) (pick (shp (stripped value)) idx) = get value jdx.
Proof.
  intros FT FI FJ GT. cbn [stripped shp get]. f_equal. destruct (strip_app (shp value)) as (k & E & L). set (u := strip (shp value)) in *.
  assert (LI : List.length idx = List.length dst) by (eapply Forall2_length; exact FI). apply fits_len in FT.
  assert (J : exists j2, jdx = repeat 0 k ++ j2 /\ Forall2 lt j2 u).
  { rewrite E in FJ. clear - FJ. revert jdx FJ. induction k as [|k IH]; cbn; intros jdx F; [exists jdx; now split|].
    inversion F as [|j ? jdx' ? Hj F']; subst. destruct (IH _ F') as (j2 & -> & G). exists j2. split; [|exact G]. cbn. f_equal. lia. }
  destruct J as (j2 & -> & F2). rewrite L. replace (k + List.length u - List.length u) with k by lia. f_equal.
  unfold pick. apply pick_aligned; [rewrite skipn_length; lia|exact F2|].
  intros p d j i H1 H2 H3. rewrite nth_error_skipn in H3. apply (GT (k + p) d j i).
  - rewrite E. rewrite nth_error_app2; rewrite repeat_length; [|lia]. replace (k + p - k) with p by lia. exact H1.
  - rewrite nth_error_app2; rewrite repeat_length; [|lia]. replace (k + p - k) with p by lia. exact H2.
  - assert (p < List.length u) by (eapply nth_len; exact H1). lia.
  - rewrite <- H3. f_equal. lia.
Qed.

Lemma set_then_get st o ix name value st' : setitem st o ix name value = Ok st' -> shows (getitem st' o ix name) value.
Proof.
  intros H. unfold setitem in H. destruct (nth_error (objects st) o) as [ob|] eqn:NO; [|discriminate]. destruct (lookup ob name) as [[v|]|] eqn:L; try discriminate.
  match type of H with (if ?b then Fail EValue else _) = _ => destruct b end; [discriminate|].
  destruct (span (rows v) ix) as [[s m]|] eqn:SP; [|discriminate]. cbn [rbind] in H.
  destruct (fits (shp (stripped value)) (dims ix m (tail v))) eqn:FT; cbn [negb] in H; [|discriminate].
  destruct (repeated v && (1 <? m))%bool eqn:RM; [discriminate|].
  destruct (nth_error (memory st) (block v)) as [t|] eqn:N; [|discriminate]. injection H as <-.
  unfold getitem. cbn [objects memory]. rewrite NO, L, SP. cbn [rbind fst snd]. rewrite update_nth by (eapply nth_len; exact N). rewrite Nat.eqb_refl.
  eexists. split; [reflexivity|]. cbn [shp get]. intros idx jdx FI FJ GT.
  assert (M1 : repeated v = true -> m <= 1) by (intros R; rewrite R in RM; cbn [andb] in RM; apply Nat.ltb_ge in RM; exact RM).
  assert (Q : row_of ix idx < m).
  { destruct ix as [z|a b]; cbn [row_of dims] in *.
    - cbn in SP. destruct (_ && _)%bool; [|discriminate]. injection SP as _ <-. lia.
    - inversion FI; subst. cbn. assumption. }
  assert (RNG : ((if repeated v then 0 else s) <=? (if repeated v then 0 else s + row_of ix idx)) && ((if repeated v then 0 else s + row_of ix idx) <? (if repeated v then 0 else s) + m) = true).
  { apply andb_true_intro. destruct (repeated v); split; [apply Nat.leb_le|apply Nat.ltb_lt|apply Nat.leb_le|apply Nat.ltb_lt]; lia. }
  rewrite RNG.
  refine (eq_trans _ (assigned_entry value (dims ix m (tail v)) idx jdx FT FI FJ GT)). apply (f_equal (fun q => get (stripped value) (pick (shp (stripped value)) q))).
  destruct ix as [z|a b]; cbn [rest_of row_of dims] in *; [reflexivity|]. inversion FI as [|i ? idx' ? Hi F']; subst. cbn [hd tl]. f_equal.
  cbn [row_of hd] in Q. destruct (repeated v); [|lia]. specialize (M1 eq_refl). lia.
Qed.

Lemma set_isolated st c ix name value st' : good st -> owns st c -> single st c -> setitem st c ix name value = Ok st' ->
  forall j name', (name' <> name \/ forall s m n, nth_error (objects st) c <> None -> span n ix = Ok (s, m) -> 
     (forall v ob, nth_error (objects st) c = Some ob -> lookup ob name = Some (Tensor v) -> n = rows v) -> ~ (s <= j < s + m)) ->
  agree (getitem st' c (elem j) name') (getitem st c (elem j) name').
Proof.
  intros G (obc & NC & ND & OWN) S H j name' D. pose proof H as H0. unfold setitem in H0. rewrite NC in H0. destruct (lookup obc name) as [[v|]|] eqn:L; try discriminate.
  match type of H0 with (if ?b then Fail EValue else _) = _ => destruct b end; [discriminate|].
  destruct (span (rows v) ix) as [[s m]|] eqn:SP; [|discriminate]. cbn [rbind] in H0.
  destruct (negb _); [discriminate|]. destruct (_ && _)%bool; [discriminate|].
  destruct (nth_error (memory st) (block v)) as [t|] eqn:N; [|discriminate]. injection H0 as <-.
  unfold getitem. cbn [objects memory]. rewrite NC. destruct (lookup obc name') as [[v'|]|] eqn:L'; try reflexivity.
  assert (RV : forall n w, lookup obc n = Some (Tensor w) -> repeated w = false).
  { intros n w LW. apply lookup_in in LW. destruct LW as (n' & I & _). eapply (S obc NC); exact I. }
  destruct (Nat.lt_ge_cases j (rows v')) as [HJ|HJ]; [|rewrite span_elem_out by exact HJ; reflexivity]. rewrite span_elem by exact HJ. cbn [rbind fst snd].
  rewrite update_nth by (eapply nth_len; exact N). destruct (Nat.eqb_spec (block v') (block v)) as [EB|NB].
  2: { destruct (nth_error (memory st) (block v')); [|reflexivity]. split; reflexivity. }
  destruct (string_dec name' name) as [->|NN].
  2: { exfalso. exact (lookup_two _ _ _ _ _ ND L' L NN EB). }
  destruct D as [D|D]; [contradiction|]. rewrite L in L'. injection L' as <-. rewrite N. cbn [agree]. split; [reflexivity|]. cbn [shp get]. intros idx FI.
  rewrite !(RV _ _ L). unfold elem. cbn [row_of rest_of]. rewrite Nat.add_0_r.
  assert (NR : ~ (s <= j < s + m)).
  { apply (D s m (rows v)); [rewrite NC; discriminate|exact SP|]. intros v0 ob0 E1 E2. rewrite NC in E1. injection E1 as <-. rewrite L in E2. injection E2 as <-. reflexivity. }
  destruct ((s <=? j) && (j <? s + m)) eqn:E; [|reflexivity]. exfalso. apply NR. apply andb_prop in E. destruct E as (E1 & E2). apply Nat.leb_le in E1. apply Nat.ltb_lt in E2. lia.
Qed.
