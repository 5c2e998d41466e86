From Coq Require Import String.
From Verif Require Import Base RBase Tens Accessor AccessorSpec.
Local Open Scope nat_scope.

Definition blocks (l : list (string * attr)) : list nat :=
  flat_map (fun p => match snd p with Tensor v => [block v] | Plain => [] end) l.
Definition solo (l : list (string * attr)) : Prop := forall n v, In (n, Tensor v) l -> repeated v = false.
Definition good (st : state) : Prop :=
  (forall o ob b, nth_error (objects st) o = Some ob -> In b (blocks (attrs ob)) -> b < List.length (memory st)) /\
  (forall b, In b (held st) -> b < List.length (memory st)).
Definition owns (st : state) (c : nat) : Prop :=
  exists ob, nth_error (objects st) c = Some ob /\ NoDup (blocks (attrs ob)) /\ 
    (forall b, In b (blocks (attrs ob)) -> ~ In b (held st) /\
       forall o ob', o <> c -> nth_error (objects st) o = Some ob' -> ~ In b (blocks (attrs ob'))).

Lemma update_len {A} i (x : A) l : i < List.length l -> List.length (update i x l) = List.length l.
Proof. intros H. unfold update. rewrite app_length, firstn_length. cbn [List.length]. rewrite skipn_length. lia. Qed.
Lemma update_nth {A} i (x : A) l j : i < List.length l -> nth_error (update i x l) j = if j =? i then Some x else nth_error l j.
Proof.
  intros H. unfold update. destruct (Nat.eqb_spec j i) as [->|N].
  - rewrite nth_error_app2; rewrite firstn_length, Nat.min_l by lia; [|lia]. rewrite Nat.sub_diag. reflexivity.
  - destruct (Nat.lt_ge_cases j i).
    + rewrite nth_error_app1 by (rewrite firstn_length; lia). rewrite nth_error_firstn. destruct (Nat.ltb_spec j i); [reflexivity|lia].
    + rewrite nth_error_app2; rewrite firstn_length, Nat.min_l by lia; [|lia].
      replace (j - i) with (S (j - S i)) by lia. cbn [nth_error]. rewrite nth_error_skipn. f_equal. lia.
Qed.

Lemma blocks_in l b : In b (blocks l) <-> exists n v, In (n, Tensor v) l /\ block v = b.
Proof.
  unfold blocks. rewrite in_flat_map. split.
  - intros ([n [v|]] & I & H); cbn in H; [|easy]. destruct H as [H|[]]. now exists n, v.
  - intros (n & v & I & <-). exists (n, Tensor v). split; [exact I|]. left. reflexivity.
Qed.
Lemma lookup_in ob name a : lookup ob name = Some a -> exists n, In (n, a) (attrs ob) /\ n = name.
Proof.
  unfold lookup. destruct find as [[n b]|] eqn:F; [|discriminate]. intros E. injection E as <-.
  apply find_some in F. destruct F as (I & E). cbn in E. apply String.eqb_eq in E. exists n. now split.
Qed.
Lemma lookup_two ob n1 n2 v1 v2 : NoDup (blocks (attrs ob)) -> lookup ob n1 = Some (Tensor v1) -> lookup ob n2 = Some (Tensor v2) ->
  n1 <> n2 -> block v1 <> block v2.
Proof.
  unfold lookup. destruct ob as [c l]. cbn [attrs]. induction l as [|[n a] l IH]; cbn; [discriminate|].
  destruct (String.eqb_spec n n1) as [->|N1], (String.eqb_spec n1 n2) as [->|N]; try congruence; cbn [snd].
  - intros ND E H _ E'. injection E as ->. destruct (String.eqb_spec n1 n2); [congruence|].
    destruct find as [[m b]|] eqn:F in H; [|discriminate]. injection H as ->. apply find_some in F.
    cbn in ND. apply NoDup_cons_iff in ND. destruct ND as (ND & _). apply ND. apply blocks_in. exists m, v2. split; [apply F|congruence].
  - destruct (String.eqb_spec n n2) as [->|N2].
    + intros ND H E _ E'. cbn [snd] in E. injection E as ->. destruct find as [[m b]|] eqn:F in H; [|discriminate]. injection H as ->.
      apply find_some in F. cbn in ND. apply NoDup_cons_iff in ND. destruct ND as (ND & _). apply ND. apply blocks_in. exists m, v1. split; [apply F|congruence].
    + intros ND H1 H2 _. apply IH; try assumption; try congruence.
      destruct a; [|exact ND]. cbn in ND. apply NoDup_cons_iff in ND. apply ND.
Qed.

(* ---- construct ---- *)
Lemma formats_mem kw : forall st mem vs, formats st kw = Ok (mem, vs) ->
  exists extra, mem = memory st ++ extra /\
    forall n v, In (n, v) vs -> In (block v) (held st) \/ List.length (memory st) <= block v < List.length mem.
Proof.
  induction kw as [|[n a] kw IH]; cbn; intros st mem vs H.
  - injection H as <- <-. exists []. rewrite app_nil_r. split; [reflexivity|easy].
  - destruct (format st a) as [[m1 ov]|] eqn:F; [|discriminate]. cbn [rbind fst snd] in H.
    destruct (formats (St m1 (objects st) (held st)) kw) as [[m2 vs2]|] eqn:G; [|discriminate]. cbn [rbind fst snd] in H. injection H as <- <-.
    destruct (IH _ _ _ G) as (e2 & E2 & H2). cbn [memory held] in *.
    assert (K : exists e1, m1 = memory st ++ e1 /\ forall v, ov = Some v -> In (block v) (held st) \/ List.length (memory st) <= block v < List.length m1).
    { destruct a as [t|k| |]; cbn in F.
      - destruct (batched (shp t)); [discriminate|]. injection F as <- <-. exists [reshape0 t]. split; [reflexivity|]. intros v E. injection E as <-. right. cbn. rewrite app_length. cbn. lia.
      - destruct (nth_error (held st) k) as [b|] eqn:NB; [|discriminate]. destruct (nth_error (memory st) b) as [t|]; [|discriminate]. destruct (shp t); [discriminate|]. injection F as <- <-.
        exists []. rewrite app_nil_r. split; [reflexivity|]. intros v E. injection E as <-. left. cbn. eapply nth_error_In; exact NB.
      - injection F as <- <-. exists []. rewrite app_nil_r. easy.
      - injection F as <- <-. exists []. rewrite app_nil_r. easy. }
    destruct K as (e1 & E1 & H1). exists (e1 ++ e2). split; [rewrite E2, E1; now rewrite app_assoc|].
    assert (L1 : List.length (memory st) <= List.length m1) by (rewrite E1, app_length; lia).
    assert (L2 : List.length m1 <= List.length m2) by (rewrite E2, app_length; lia).
    intros n' v I. assert (I' : ov = Some v \/ In (n', v) vs2).
    { destruct ov as [v'|]; [|right; exact I]. destruct I as [I|I]; [|right; exact I]. injection I as <- <-. left. reflexivity. }
    destruct I' as [I'|I'].
    + destruct (H1 v I') as [?|?]; [left; assumption|right; lia].
    + destruct (H2 n' v I') as [?|?]; [left; assumption|right; lia].
Qed.
Lemma expand_block n v v' : expand n v = Ok v' -> block v' = block v.
Proof. unfold expand. destruct (_ && _)%bool; [discriminate|]. intros E. injection E as <-. destruct (rows v =? n); reflexivity. Qed.
Lemma flags_blocks kw : blocks (flags kw) = [].
Proof. unfold blocks, flags. induction kw as [|[n a] kw IH]; [reflexivity|]. cbn. destruct a; cbn; exact IH. Qed.
Lemma rmap_in {A B} (f : A -> result B) l : forall l', rmap f l = Ok l' -> forall y, In y l' -> exists x, In x l /\ f x = Ok y.
Proof.
  induction l as [|a l IH]; cbn; intros l' H y I.
  - injection H as <-. easy.
  - destruct (f a) as [b|] eqn:F; [|discriminate]. destruct (rmap f l) as [l2|] eqn:G; [|discriminate]. injection H as <-.
    destruct I as [<-|I]; [exists a; split; [left; reflexivity|exact F]|]. destruct (IH _ eq_refl y I) as (x & I' & E). exists x. split; [right; exact I'|exact E].
Qed.
Lemma construct_mem st kw st' : construct st kw = Ok st' ->
  exists extra ob, memory st' = memory st ++ extra /\ objects st' = objects st ++ [ob] /\ held st' = held st /\
    forall b, In b (blocks (attrs ob)) -> In b (held st) \/ List.length (memory st) <= b < List.length (memory st').
Proof.
  unfold construct. destruct (formats st kw) as [[mem vs]|] eqn:F; [|discriminate]. cbn [rbind fst snd].
  destruct rmap as [l|] eqn:G; [|discriminate]. cbn [rbind]. intros E. injection E as <-. cbn [memory objects held].
  destruct (formats_mem _ _ _ _ F) as (extra & E & H). exists extra. eexists. split; [exact E|]. split; [reflexivity|]. split; [reflexivity|].
  cbn [attrs]. intros b I. apply blocks_in in I. destruct I as (n & v & I & <-). apply in_app_iff in I. destruct I as [I|I].
  - exfalso. assert (J : In (block v) (blocks (flags kw))) by (apply blocks_in; exists n, v; now split). rewrite flags_blocks in J. exact J.
  - destruct (rmap_in _ _ _ G _ I) as ([n' v'] & I' & E'). cbn [fst snd] in E'. destruct (expand _ v') as [w|] eqn:X; [|discriminate]. cbn [rbind] in E'. injection E' as <- <-.
    rewrite (expand_block _ _ _ X). apply (H n' v' I').
Qed.

(* ---- clone ---- *)
Lemma clones_mem l : forall mem mem' l', clones mem l = Ok (mem', l') ->
  exists extra, mem' = mem ++ extra /\ NoDup (blocks l') /\ solo l' /\
    forall b, In b (blocks l') -> List.length mem <= b < List.length mem'.
Proof.
  induction l as [|[n a] l IH]; cbn; intros mem mem' l' H.
  - injection H as <- <-. exists []. rewrite app_nil_r. split; [reflexivity|]. split; [constructor|]. split; [intros ? ? []|intros ? []].
  - destruct a as [v|].
    + destruct (nth_error mem (block v)) as [t|]; [|discriminate]. destruct (clones (mem ++ [solid t v]) l) as [[m2 l2]|] eqn:G; [|discriminate].
      cbn [rbind fst snd] in H. injection H as <- <-. destruct (IH _ _ _ G) as (e & E & ND & S & H).
      assert (L : List.length mem < List.length m2) by (rewrite E, !app_length; cbn; lia).
      exists ([solid t v] ++ e). split; [rewrite E; now rewrite <- app_assoc|]. rewrite app_length in H. cbn [List.length] in H. split; [|split].
      * cbn. constructor; [|exact ND]. intros I. apply H in I. lia.
      * intros n' v' [I|I]; [injection I as _ <-; reflexivity|]. eapply S; exact I.
      * cbn. intros b [<-|I]; [lia|]. apply H in I. lia.
    + destruct (clones mem l) as [[m2 l2]|] eqn:G; [|discriminate]. cbn [rbind fst snd] in H. injection H as <- <-. destruct (IH _ _ _ G) as (e & E & ND & S & H).
      exists e. split; [exact E|]. split; [exact ND|]. split; [|exact H]. intros n' v' [I|I]; [discriminate|]. eapply S; exact I.
Qed.
Lemma clone_mem st o st' : clone st o = Ok st' ->
  exists extra ob, memory st' = memory st ++ extra /\ objects st' = objects st ++ [ob] /\ held st' = held st /\
    NoDup (blocks (attrs ob)) /\ solo (attrs ob) /\
    forall b, In b (blocks (attrs ob)) -> List.length (memory st) <= b < List.length (memory st').
Proof.
  unfold clone. destruct (nth_error (objects st) o) as [ob|]; [|discriminate]. destruct (clones (memory st) (attrs ob)) as [[m l]|] eqn:G; [|discriminate].
  cbn [rbind fst snd]. intros E. injection E as <-. destruct (clones_mem _ _ _ _ G) as (e & E & ND & S & H). exists e, (Obj (count ob) l). cbn. tauto.
Qed.

(* ---- gather ---- *)
Lemma gathers_mem idx l k : forall mem mem' l', gathers mem idx l = Ok (mem', l') -> k <= List.length mem ->
  (forall b, In b (blocks l) -> b < k) ->
  exists extra, mem' = mem ++ extra /\ (NoDup (blocks l) -> NoDup (blocks l')) /\ (solo l -> solo l') /\
    forall b, In b (blocks l') -> In b (blocks l) \/ List.length mem <= b < List.length mem'.
Proof.
  induction l as [|[n a] l IH]; cbn [gathers]; intros mem mem' l' H K B.
  - injection H as <- <-. exists []. rewrite app_nil_r. split; [reflexivity|]. split; [tauto|]. split; [tauto|]. intros b [].
  - destruct a as [v|].
    + change (forall b, In b (block v :: blocks l) -> b < k) in B. destruct (1 <? rows v) eqn:R1.
      * destruct (forallb (fun i => i <? rows v) idx) eqn:FB in H; cbn [negb] in H; [|discriminate H]. destruct (nth_error mem (block v)) as [t|]; [|discriminate].
        destruct (gathers (mem ++ [gathered t v idx]) idx l) as [[m2 l2]|] eqn:G; [|discriminate]. cbn [rbind fst snd] in H. injection H as <- <-.
        destruct (IH _ _ _ G) as (e & E & ND & S & H); [rewrite app_length; lia|intros b I; apply B; cbn; right; exact I|].
        assert (L : List.length mem < List.length m2) by (rewrite E, !app_length; cbn; lia).
        exists ([gathered t v idx] ++ e). split; [rewrite E; now rewrite <- app_assoc|]. rewrite app_length in H. cbn [List.length] in H. split; [|split].
        -- cbn. intros N. apply NoDup_cons_iff in N. constructor; [|apply ND, N]. intros I. apply H in I. destruct I as [I|I]; [|lia]. specialize (B (List.length mem) (or_intror I)). lia.
        -- intros SS n' v' [I|I]; [injection I as _ <-; reflexivity|]. refine (S _ n' v' I). intros ? ? ?. eapply SS; right; eassumption.
        -- cbn. intros b [<-|I]; [right; lia|]. apply H in I. destruct I as [I|I]; [left; right; exact I|right; lia].
      * destruct (gathers mem idx l) as [[m2 l2]|] eqn:G; [|discriminate]. cbn [rbind fst snd] in H. injection H as <- <-.
        destruct (IH _ _ _ G) as (e & E & ND & S & H); [exact K|intros b I; apply B; cbn; right; exact I|].
        exists e. split; [exact E|]. split; [|split].
        -- cbn. intros N. apply NoDup_cons_iff in N. constructor; [|apply ND, N]. intros I. apply H in I. destruct I as [I|I]; [apply N; exact I|]. specialize (B (block v) (or_introl eq_refl)). lia.
        -- intros SS n' v' [I|I]; [eapply SS; left; exact I|]. refine (S _ n' v' I). intros ? ? ?. eapply SS; right; eassumption.
        -- cbn. intros b [<-|I]; [left; left; reflexivity|]. apply H in I. destruct I as [I|I]; [left; right; exact I|right; exact I].
    + destruct (gathers mem idx l) as [[m2 l2]|] eqn:G; [|discriminate]. cbn [rbind fst snd] in H. injection H as <- <-.
      destruct (IH _ _ _ G K B) as (e & E & ND & S & H). exists e. split; [exact E|]. split; [exact ND|]. split; [|exact H].
      intros SS n' v' [I|I]; [discriminate|]. refine (S _ n' v' I). intros ? ? ?. eapply SS; right; eassumption.
Qed.
