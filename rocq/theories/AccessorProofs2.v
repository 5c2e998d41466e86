From Coq Require Import String.
From Verif Require Import Base RBase Tens Accessor AccessorSpec AccessorProofs.
Local Open Scope nat_scope.

Lemma gather_mem st o idx st' : good st -> gather_props st o idx = Ok st' ->
  exists extra ob ob', nth_error (objects st) o = Some ob /\ memory st' = memory st ++ extra /\
    objects st' = update o ob' (objects st) /\ held st' = held st /\ count ob' = count ob /\
    (NoDup (blocks (attrs ob)) -> NoDup (blocks (attrs ob'))) /\ (solo (attrs ob) -> solo (attrs ob')) /\
    forall b, In b (blocks (attrs ob')) -> In b (blocks (attrs ob)) \/ List.length (memory st) <= b < List.length (memory st').
Proof.
  intros (G1 & _). unfold gather_props. destruct (nth_error (objects st) o) as [ob|] eqn:N; [|discriminate].
  destruct (gathers (memory st) idx (attrs ob)) as [[m l]|] eqn:G; [|discriminate]. cbn [rbind fst snd]. intros E. injection E as <-.
  destruct (gathers_mem idx (attrs ob) (List.length (memory st)) _ _ _ G (le_n _) (fun b => G1 o ob b N)) as (e & E & ND & S & H).
  exists e, ob, (Obj (count ob) l). cbn. repeat split; assumption.
Qed.
Lemma setitem_mem st o ix name value st' : setitem st o ix name value = Ok st' ->
  exists ob v t t', nth_error (objects st) o = Some ob /\ lookup ob name = Some (Tensor v) /\ nth_error (memory st) (block v) = Some t /\
    memory st' = update (block v) t' (memory st) /\ objects st' = objects st /\ held st' = held st /\ shp t' = shp t.
Proof.
  unfold setitem. destruct (nth_error (objects st) o) as [ob|]; [|discriminate]. destruct (lookup ob name) as [[v|]|] eqn:L; try discriminate.
  match goal with |- context [if ?b then Fail EValue else _] => destruct b end; [discriminate|].
  destruct (span (rows v) ix) as [[s m]|]; [|discriminate]. cbn [rbind]. destruct (negb _); [discriminate|]. destruct (_ && _)%bool; [discriminate|].
  destruct (nth_error (memory st) (block v)) as [t|] eqn:N; [|discriminate]. intros E. injection E as <-. exists ob, v, t. eexists. cbn. split; [reflexivity|]. split; [exact L|]. split; [exact N|]. split; [reflexivity|]. repeat split.
Qed.
Lemma overwrite_mem st k f st' : overwrite st k f = Ok st' ->
  exists b t t', nth_error (held st) k = Some b /\ nth_error (memory st) b = Some t /\ memory st' = update b t' (memory st) /\
    objects st' = objects st /\ held st' = held st /\ shp t' = shp t.
Proof.
  unfold overwrite. destruct (nth_error (held st) k) as [b|]; [|discriminate]. destruct (nth_error (memory st) b) as [t|] eqn:N; [|discriminate]. intros E. injection E as <-.
  exists b, t. eexists. split; [reflexivity|]. split; [exact N|]. split; [reflexivity|]. repeat split.
Qed.
Lemma look_block ob name v : lookup ob name = Some (Tensor v) -> In (block v) (blocks (attrs ob)).
Proof. intros L. apply lookup_in in L. destruct L as (n & I & _). apply blocks_in. exists n, v. now split. Qed.
Lemma nth_len {A} (l : list A) i x : nth_error l i = Some x -> i < List.length l.
Proof. intros H. apply nth_error_Some. rewrite H. discriminate. Qed.

Lemma nth_app_cases {A} (l : list A) y i x : nth_error (l ++ [y]) i = Some x -> nth_error l i = Some x \/ (i = List.length l /\ x = y).
Proof.
  destruct (Nat.lt_ge_cases i (List.length l)).
  - rewrite nth_error_app1 by assumption. tauto.
  - rewrite nth_error_app2 by assumption. destruct (i - List.length l) as [|d] eqn:E; cbn; intros X; [|destruct d; discriminate]. injection X as <-. right. split; [lia|reflexivity].
Qed.

Lemma good_step st x st' : good st -> step st x = Ok st' -> good st'.
Proof.
  intros (G1 & G2). destruct x as [kw|o ix name value|o|o idx|t|k f]; cbn [step]; intros H.
  - destruct (construct_mem _ _ _ H) as (e & ob & M & O & HD & B).
    assert (L : List.length (memory st) <= List.length (memory st')) by (rewrite M, app_length; lia). split.
    + intros o ob' b N I. rewrite O in N. destruct (nth_app_cases _ _ _ _ N) as [N'|(_ & ->)].
      * specialize (G1 _ _ _ N' I). lia.
      * destruct (B b I) as [J|J]; [specialize (G2 b J); lia|lia].
    + rewrite HD. intros b I. specialize (G2 b I). lia.
  - destruct (setitem_mem _ _ _ _ _ _ H) as (ob & v & t & t' & _ & _ & N & M & O & HD & _). unfold good. rewrite O, HD, M, update_len by (eapply nth_len; exact N). split; assumption.
  - destruct (clone_mem _ _ _ H) as (e & ob & M & O & HD & _ & _ & B).
    assert (L : List.length (memory st) <= List.length (memory st')) by (rewrite M, app_length; lia). split.
    + intros o' ob' b N I. rewrite O in N. destruct (nth_app_cases _ _ _ _ N) as [N'|(_ & ->)].
      * specialize (G1 _ _ _ N' I). lia.
      * specialize (B b I). lia.
    + rewrite HD. intros b I. specialize (G2 b I). lia.
  - destruct (gather_mem _ _ _ _ (conj G1 G2) H) as (e & ob & ob' & N & M & O & HD & _ & _ & _ & B).
    assert (L : List.length (memory st) <= List.length (memory st')) by (rewrite M, app_length; lia). split.
    + intros o' ob2 b N2 I. rewrite O, update_nth in N2 by (eapply nth_len; exact N). destruct (o' =? o).
      * injection N2 as <-. destruct (B b I) as [J|J]; [specialize (G1 _ _ _ N J); lia|lia].
      * specialize (G1 _ _ _ N2 I). lia.
    + rewrite HD. intros b I. specialize (G2 b I). lia.
  - injection H as <-. unfold allocate, good. cbn. rewrite app_length. cbn. split.
    + intros o ob b N I. specialize (G1 _ _ _ N I). lia.
    + intros b I. apply in_app_iff in I. destruct I as [I|[<-|[]]]; [specialize (G2 b I); lia|lia].
  - destruct (overwrite_mem _ _ _ _ H) as (b & t & t' & _ & N & M & O & HD & _). unfold good. rewrite O, HD, M, update_len by (eapply nth_len; exact N). split; assumption.
Qed.

Lemma owns_step st x st' c : good st -> owns st c -> step st x = Ok st' -> owns st' c.
Proof.
  intros G (obc & NC & ND & OWN) H. pose proof G as (G1 & G2). pose proof (nth_len _ _ _ NC) as LC.
  destruct x as [kw|o ix name value|o|o idx|t|k f]; cbn [step] in H.
  - destruct (construct_mem _ _ _ H) as (e & ob & M & O & HD & B). exists obc. rewrite O, HD. split; [rewrite nth_error_app1 by assumption; exact NC|]. split; [exact ND|].
    intros b I. destruct (OWN b I) as (H1 & H2). split; [exact H1|]. intros o ob' NE N J. destruct (nth_app_cases _ _ _ _ N) as [N'|(_ & ->)].
    + exact (H2 _ _ NE N' J).
    + destruct (B b J) as [K|K]; [exact (H1 K)|]. specialize (G1 _ _ _ NC I). lia.
  - destruct (setitem_mem _ _ _ _ _ _ H) as (ob & v & t & t' & _ & _ & N & M & O & HD & _). exists obc. rewrite O, HD. now split.
  - destruct (clone_mem _ _ _ H) as (e & ob & M & O & HD & _ & _ & B). exists obc. rewrite O, HD. split; [rewrite nth_error_app1 by assumption; exact NC|]. split; [exact ND|].
    intros b I. destruct (OWN b I) as (H1 & H2). split; [exact H1|]. intros o' ob' NE N J. destruct (nth_app_cases _ _ _ _ N) as [N'|(_ & ->)].
    + exact (H2 _ _ NE N' J).
    + specialize (B b J). specialize (G1 _ _ _ NC I). lia.
  - destruct (gather_mem _ _ _ _ G H) as (e & ob & ob' & N & M & O & HD & _ & NDg & _ & B). unfold owns. rewrite O, HD.
    destruct (Nat.eq_dec o c) as [->|NE].
    + rewrite NC in N. injection N as <-. exists ob'. rewrite update_nth, Nat.eqb_refl by assumption. split; [reflexivity|]. split; [exact (NDg ND)|].
      intros b I. destruct (B b I) as [J|J].
      * destruct (OWN b J) as (H1 & H2). split; [exact H1|]. intros o ob2 NE N2. rewrite update_nth in N2 by assumption. destruct (Nat.eqb_spec o c); [contradiction|]. exact (H2 _ _ NE N2).
      * split; [intros K; specialize (G2 b K); lia|]. intros o ob2 NE N2 K. rewrite update_nth in N2 by assumption. destruct (Nat.eqb_spec o c); [contradiction|]. specialize (G1 _ _ _ N2 K). lia.
    + exists obc. pose proof (nth_len _ _ _ N) as LO. rewrite update_nth by assumption. destruct (Nat.eqb_spec c o); [congruence|]. split; [exact NC|]. split; [exact ND|].
      intros b I. destruct (OWN b I) as (H1 & H2). split; [exact H1|]. intros o' ob2 NE' N2 J. rewrite update_nth in N2 by assumption. destruct (Nat.eqb_spec o' o) as [->|].
      * injection N2 as <-. destruct (B b J) as [K|K]; [exact (H2 _ _ NE' N K)|]. specialize (G1 _ _ _ NC I). lia.
      * exact (H2 _ _ NE' N2 J).
  - injection H as <-. unfold allocate, owns. cbn. exists obc. split; [exact NC|]. split; [exact ND|]. intros b I. destruct (OWN b I) as (H1 & H2). split; [|exact H2].
    intros J. apply in_app_iff in J. destruct J as [J|[J|[]]]; [exact (H1 J)|]. specialize (G1 _ _ _ NC I). lia.
  - destruct (overwrite_mem _ _ _ _ H) as (b & t & t' & _ & N & M & O & HD & _). exists obc. rewrite O, HD. now split.
Qed.

Lemma good_run xs : forall st, good st -> good (run st xs).
Proof.
  induction xs as [|x xs IH]; cbn; intros st G; [exact G|]. apply IH. unfold next. destruct (step st x) as [s|] eqn:E; [|exact G]. eapply good_step; eassumption.
Qed.
Lemma owns_run xs c : forall st, good st -> owns st c -> owns (run st xs) c.
Proof.
  induction xs as [|x xs IH]; cbn; intros st G O; [exact O|]. apply IH; unfold next; destruct (step st x) as [s|] eqn:E; try assumption; [eapply good_step|eapply owns_step]; eassumption.
Qed.
Lemma good_empty : good empty. Proof. split; [intros [] ? ? H; discriminate H|intros ? []]. Qed.
Lemma reachable_good st : reachable st -> good st.
Proof. intros (xs & ->). apply good_run, good_empty. Qed.

Definition single (st : state) (c : nat) : Prop := forall ob, nth_error (objects st) c = Some ob -> solo (attrs ob).
Lemma clone_owns st o st' : good st -> clone st o = Ok st' -> owns st' (List.length (objects st)) /\ single st' (List.length (objects st)).
Proof.
  intros (G1 & G2) H. destruct (clone_mem _ _ _ H) as (e & ob & M & O & HD & ND & S & B). split.
  - exists ob. rewrite O, HD. split; [rewrite nth_error_app2, Nat.sub_diag by lia; reflexivity|]. split; [exact ND|]. intros b I. split.
    + intros J. specialize (G2 b J). specialize (B b I). lia.
    + intros o' ob' NE N J. destruct (nth_app_cases _ _ _ _ N) as [N'|(Q & _)]; [|contradiction]. specialize (G1 _ _ _ N' J). specialize (B b I). lia.
  - intros ob' N. rewrite O, nth_error_app2, Nat.sub_diag in N by lia. injection N as <-. exact S.
Qed.
Lemma single_step st x st' c : good st -> c < List.length (objects st) -> single st c -> step st x = Ok st' -> single st' c /\ c < List.length (objects st').
Proof.
  intros G LC S H. unfold single. destruct x as [kw|o ix name value|o|o idx|t|k f]; cbn [step] in H.
  - destruct (construct_mem _ _ _ H) as (e & ob & M & O & HD & B). rewrite O, nth_error_app1, app_length by assumption. split; [exact S|lia].
  - destruct (setitem_mem _ _ _ _ _ _ H) as (ob & v & t & t' & _ & _ & N & M & O & HD & _). rewrite O. now split.
  - destruct (clone_mem _ _ _ H) as (e & ob & M & O & HD & _ & _ & B). rewrite O, nth_error_app1, app_length by assumption. split; [exact S|lia].
  - destruct (gather_mem _ _ _ _ G H) as (e & ob & ob' & N & M & O & HD & _ & _ & Sg & B). pose proof (nth_len _ _ _ N). rewrite O, update_nth, update_len by assumption. split; [|assumption].
    destruct (Nat.eqb_spec c o) as [->|]; [|exact S]. intros ob2 E. injection E as <-. apply Sg, S, N.
  - injection H as <-. cbn. now split.
  - destruct (overwrite_mem _ _ _ _ H) as (b & t & t' & _ & N & M & O & HD & _). rewrite O. now split.
Qed.
Lemma single_run xs c : forall st, good st -> c < List.length (objects st) -> single st c -> single (run st xs) c.
Proof.
  induction xs as [|x xs IH]; cbn; intros st G L S; [exact S|]. apply IH; unfold next; destruct (step st x) as [s|] eqn:E; try assumption.
  - eapply good_step; eassumption.
  - eapply single_step; eassumption.
  - eapply single_step; eassumption.
Qed.
