From Coq Require Import String.
From Verif Require Import Base RBase Tens Accessor AccessorSpec AccessorProofs AccessorProofs2 AccessorProofs3.
Local Open Scope nat_scope.

Definition find_attr (l : list (string * attr)) (name : string) : option attr :=
  match find (fun p => String.eqb (fst p) name) l with Some p => Some (snd p) | None => None end.
Lemma lookup_find ob name : lookup ob name = find_attr (attrs ob) name. Proof. reflexivity. Qed.
Lemma find_attr_cons n a l name : find_attr ((n, a) :: l) name = if String.eqb n name then Some a else find_attr l name.
Proof. unfold find_attr. cbn. destruct (String.eqb n name); reflexivity. Qed.

(* ---- clones and gathers, attribute by attribute ---- *)
Lemma clones_find l name : forall mem mem' l', clones mem l = Ok (mem', l') -> (forall b, In b (blocks l) -> b < List.length mem) ->
  match find_attr l name with
  | Some (Tensor v) => exists t b, nth_error mem (block v) = Some t /\ find_attr l' name = Some (Tensor (View b (rows v) (tail v) false)) /\
                         nth_error mem' b = Some (solid t v)
  | a => find_attr l' name = a
  end.
Proof.
  induction l as [|[n a] l IH]; cbn [clones]; intros mem mem' l' H B.
  - injection H as <- <-. reflexivity.
  - destruct a as [v|].
    + destruct (nth_error mem (block v)) as [t|] eqn:N; [|discriminate]. destruct (clones (mem ++ [solid t v]) l) as [[m2 l2]|] eqn:G; [|discriminate].
      cbn [rbind fst snd] in H. injection H as <- <-. rewrite !find_attr_cons. destruct (String.eqb n name).
      * exists t, (List.length mem). split; [exact N|]. split; [reflexivity|]. destruct (clones_mem _ _ _ _ G) as (e & E & _). rewrite E, nth_app_old by (rewrite app_length; cbn; lia).
        rewrite nth_error_app2, Nat.sub_diag by lia. reflexivity.
      * assert (B' : forall b, In b (blocks l) -> b < List.length (mem ++ [solid t v])).
        { intros b I. rewrite app_length. specialize (B b (or_intror I)). lia. }
        specialize (IH _ _ _ G B'). destruct (find_attr l name) as [[w|]|] eqn:FA; try exact IH. destruct IH as (t' & b & N' & F & N2). exists t', b. split; [|now split].
        rewrite nth_app_old in N'; [exact N'|]. apply B. right. unfold find_attr in FA. destruct find as [[m x]|] eqn:FF in FA; [|discriminate]. injection FA as ->. apply find_some in FF. apply blocks_in. exists m, w. split; [apply FF|reflexivity].
    + destruct (clones mem l) as [[m2 l2]|] eqn:G; [|discriminate]. cbn [rbind fst snd] in H. injection H as <- <-. rewrite !find_attr_cons. destruct (String.eqb n name); [reflexivity|]. exact (IH _ _ _ G B).
Qed.
Lemma gathers_find idx l name : forall mem mem' l', gathers mem idx l = Ok (mem', l') -> (forall b, In b (blocks l) -> b < List.length mem) ->
  match find_attr l name with
  | Some (Tensor v) =>
      if 1 <? rows v then
        exists t b, nth_error mem (block v) = Some t /\ find_attr l' name = Some (Tensor (View b (List.length idx) (tail v) false)) /\
          nth_error mem' b = Some (gathered t v idx) /\ forall i, In i idx -> i < rows v
      else find_attr l' name = Some (Tensor v)
  | a => find_attr l' name = a
  end.
Proof.
  induction l as [|[n a] l IH]; cbn [gathers]; intros mem mem' l' H B.
  - injection H as <- <-. reflexivity.
  - destruct a as [v|].
    + destruct (1 <? rows v) eqn:R1.
      * destruct (forallb (fun i => i <? rows v) idx) eqn:FB; cbn [negb] in H; [|discriminate].
        destruct (nth_error mem (block v)) as [t|] eqn:N; [|discriminate]. destruct (gathers (mem ++ [gathered t v idx]) idx l) as [[m2 l2]|] eqn:G; [|discriminate].
        cbn [rbind fst snd] in H. injection H as <- <-. rewrite !find_attr_cons.
        assert (B' : forall b, In b (blocks l) -> b < List.length (mem ++ [gathered t v idx])).
        { intros b I. rewrite app_length. specialize (B b (or_intror I)). lia. }
        destruct (String.eqb n name).
        -- rewrite R1. exists t, (List.length mem). split; [exact N|]. split; [reflexivity|]. destruct (gathers_mem idx l _ _ _ _ G (le_n _) B') as (e & E & _). split.
           ++ rewrite E, nth_app_old by (rewrite app_length; cbn; lia). rewrite nth_error_app2, Nat.sub_diag by lia. reflexivity.
           ++ intros i I. rewrite forallb_forall in FB. apply Nat.ltb_lt, FB, I.
        -- specialize (IH _ _ _ G B'). destruct (find_attr l name) as [[w|]|] eqn:FA; try exact IH. destruct (1 <? rows w); [|exact IH].
           destruct IH as (t' & b & N' & F & N2). exists t', b. split; [|now split].
           rewrite nth_app_old in N'; [exact N'|]. apply B. right. unfold find_attr in FA. destruct find as [[m x]|] eqn:FF in FA; [|discriminate]. injection FA as ->. apply find_some in FF. apply blocks_in. exists m, w. split; [apply FF|reflexivity].
      * destruct (gathers mem idx l) as [[m2 l2]|] eqn:G; [|discriminate]. cbn [rbind fst snd] in H. injection H as <- <-. rewrite !find_attr_cons.
        destruct (String.eqb n name); [rewrite R1; reflexivity|]. apply (IH _ _ _ G). intros b I. apply B. right. exact I.
    + destruct (gathers mem idx l) as [[m2 l2]|] eqn:G; [|discriminate]. cbn [rbind fst snd] in H. injection H as <- <-. rewrite !find_attr_cons.
      destruct (String.eqb n name); [reflexivity|]. exact (IH _ _ _ G B).
Qed.

Lemma agree_refl x : agree x x. Proof. destruct x; cbn; [split; reflexivity|reflexivity]. Qed.
Lemma clone_reads st o st' : good st -> clone st o = Ok st' ->
  forall ix name, agree (getitem st' (List.length (objects st)) ix name) (getitem st o ix name).
Proof.
  intros (G1 & G2) H ix name. unfold clone in H. destruct (nth_error (objects st) o) as [ob|] eqn:N; [|discriminate].
  destruct (clones (memory st) (attrs ob)) as [[m l]|] eqn:G; [|discriminate]. cbn [rbind fst snd] in H. injection H as <-.
  unfold getitem. cbn [objects memory]. rewrite nth_error_app2, Nat.sub_diag by lia. cbn [nth_error]. rewrite N, !lookup_find. cbn [attrs].
  pose proof (clones_find (attrs ob) name _ _ _ G (fun b => G1 o ob b N)) as F.
  destruct (find_attr (attrs ob) name) as [[v|]|]; [|rewrite F; reflexivity|rewrite F; reflexivity].
  destruct F as (t & b & NT & -> & NB). cbn [rows tail block repeated]. destruct (span (rows v) ix) as [[s k]|]; [|reflexivity]. cbn [rbind fst snd]. rewrite NB, NT.
  split; [reflexivity|]. intros idx _. cbn [get solid]. destruct (repeated v); reflexivity.
Qed.
Lemma gather_reads st o idx st' name : good st -> gather_props st o idx = Ok st' ->
  (forall t, getitem st o (elem 1) name = Ok t ->
     (forall b i, nth_error idx b = Some i -> agree (getitem st' o (elem b) name) (getitem st o (elem i) name) /\ exists u, getitem st o (elem i) name = Ok u) /\
     (forall b, List.length idx <= b -> getitem st' o (elem b) name = Fail EIndex)) /\
  (getitem st o (elem 1) name = Fail EIndex -> forall ix, getitem st' o ix name = getitem st o ix name).
Proof.
  intros (G1 & G2) H. unfold gather_props in H. destruct (nth_error (objects st) o) as [ob|] eqn:N; [|discriminate].
  destruct (gathers (memory st) idx (attrs ob)) as [[m l]|] eqn:G; [|discriminate]. cbn [rbind fst snd] in H. injection H as <-.
  pose proof (nth_len _ _ _ N) as LO. pose proof (gathers_find idx (attrs ob) name _ _ _ G (fun b => G1 o ob b N)) as F.
  destruct (gathers_mem idx (attrs ob) _ _ _ _ G (le_n _) (fun b => G1 o ob b N)) as (e & E & _).
  assert (R : forall ix, getitem (St m (update o (Obj (count ob) l) (objects st)) (held st)) o ix name =
    match find_attr l name with None => Fail EAttr | Some Plain => Fail EType
    | Some (Tensor v) => p <- span (rows v) ix ;; match nth_error m (block v) with None => Fail EIndex | Some t =>
        Ok (T (dims ix (snd p) (tail v)) (fun idx => get t ((if repeated v then 0 else fst p + row_of ix idx) :: rest_of ix idx))) end end).
  { intros ix. unfold getitem. cbn [objects memory]. rewrite update_nth, Nat.eqb_refl by exact LO. reflexivity. }
  assert (R0 : forall ix, getitem st o ix name =
    match find_attr (attrs ob) name with None => Fail EAttr | Some Plain => Fail EType
    | Some (Tensor v) => p <- span (rows v) ix ;; match nth_error (memory st) (block v) with None => Fail EIndex | Some t =>
        Ok (T (dims ix (snd p) (tail v)) (fun idx => get t ((if repeated v then 0 else fst p + row_of ix idx) :: rest_of ix idx))) end end).
  { intros ix. unfold getitem. rewrite N, lookup_find. reflexivity. }
  split.
  - intros t0 H1. rewrite R0 in H1. destruct (find_attr (attrs ob) name) as [[v|]|] eqn:FA; try discriminate H1.
    destruct (Nat.lt_ge_cases 1 (rows v)) as [HR|HR]; [|rewrite span_elem_out in H1 by exact HR; discriminate H1].
    apply Nat.ltb_lt in HR. rewrite HR in F. destruct F as (t & b & NT & FL & NB & IN). split.
    + intros p i HI. rewrite R, R0, FL. cbn [rows tail block repeated]. rewrite span_elem by (eapply nth_len; exact HI). rewrite span_elem by (apply IN; eapply nth_error_In; exact HI).
      cbn [rbind fst snd]. rewrite NB, NT. split; [|eexists; reflexivity]. split; [reflexivity|]. intros q _. cbn [get gathered row_of rest_of elem]. rewrite !Nat.add_0_r. rewrite (nth_error_nth _ _ _ HI). reflexivity.
    + intros p HP. rewrite R, FL. cbn [rows]. rewrite span_elem_out by exact HP. reflexivity.
  - intros H1 ix. rewrite R, R0. rewrite R0 in H1. destruct (find_attr (attrs ob) name) as [[v|]|] eqn:FA; [|rewrite F; reflexivity|rewrite F; reflexivity].
    destruct (nth_error (memory st) (block v)) as [t|] eqn:NT.
    + destruct (Nat.lt_ge_cases 1 (rows v)) as [HR|HR]; [rewrite span_elem in H1 by exact HR; discriminate H1|].
      replace (1 <? rows v) with false in F by (symmetry; apply Nat.ltb_ge; exact HR). rewrite F, E, nth_app_old, NT by (eapply nth_len; exact NT). reflexivity.
    + exfalso. apply nth_error_None in NT. assert (block v < List.length (memory st)); [|lia]. apply (G1 o ob _ N). apply (look_block ob name). rewrite lookup_find. exact FA.
Qed.

(* ---- construction ---- *)
Lemma format_spec st n a mem ov : format st a = Ok (mem, ov) ->
  (exists e, mem = memory st ++ e) /\
  match ov with
  | Some v => exists t, content st a = Some t /\ nth_error mem (block v) = Some t /\ shp t = rows v :: tail v /\ repeated v = false
  | None => content st a = None
  end /\ (n = n :> string).
Proof.
  destruct a as [t|k| |]; cbn [format content]; intros H.
  - destruct (batched (shp t)) as [|d ds] eqn:B; [discriminate|]. injection H as <- <-. split; [exists [reshape0 t]; reflexivity|]. split; [|reflexivity].
    exists (reshape0 t). split; [reflexivity|]. cbn [block rows tail repeated]. rewrite nth_error_app2, Nat.sub_diag by lia. split; [reflexivity|]. split; [|reflexivity].
    unfold reshape0. destruct (shp t) eqn:S; cbn in B; [injection B as <- <-; reflexivity|]. rewrite S. exact B.
  - destruct (nth_error (held st) k) as [b|]; [|discriminate]. destruct (nth_error (memory st) b) as [t|] eqn:N; [|discriminate]. destruct (shp t) as [|d ds] eqn:S; [discriminate|]. injection H as <- <-.
    split; [exists []; now rewrite app_nil_r|]. split; [|reflexivity]. exists t. cbn. repeat split; assumption.
  - injection H as <- <-. split; [exists []; now rewrite app_nil_r|]. now split.
  - injection H as <- <-. split; [exists []; now rewrite app_nil_r|]. now split.
Qed.
Lemma content_more st e a : (forall b, In b (held st) -> b < List.length (memory st)) ->
  content (St (memory st ++ e) (objects st) (held st)) a = content st a.
Proof.
  intros G. destruct a as [t|k| |]; try reflexivity. cbn. destruct (nth_error (held st) k) as [b|] eqn:N; [|reflexivity]. apply nth_app_old, G. eapply nth_error_In; exact N.
Qed.
Lemma formats_spec kw : forall st mem vs, (forall b, In b (held st) -> b < List.length (memory st)) -> formats st kw = Ok (mem, vs) ->
  (exists e, mem = memory st ++ e) /\
  (forall name v, In (name, v) vs -> exists a t, In (name, a) kw /\ content st a = Some t /\ nth_error mem (block v) = Some t /\ shp t = rows v :: tail v /\ repeated v = false) /\
  (forall name a t, In (name, a) kw -> content st a = Some t -> exists v, In (name, v) vs) /\
  (NoDup (map fst kw) -> NoDup (map fst vs)).
Proof.
  induction kw as [|[n a] kw IH]; intros st mem vs G H.
  - cbn in H. injection H as <- <-. split; [exists []; now rewrite app_nil_r|]. split; [intros ? ? []|]. split; [intros ? ? ? []|]. intros _. constructor.
  - cbn [formats] in H. destruct (format st a) as [[m1 ov]|] eqn:F; [|discriminate]. cbn [rbind fst snd] in H.
    destruct (formats (St m1 (objects st) (held st)) kw) as [[m2 vs2]|] eqn:FF; [|discriminate]. cbn [rbind fst snd] in H. injection H as <- <-.
    destruct (format_spec st n a m1 ov F) as ((e1 & ->) & OV & _).
    assert (G' : forall b, In b (held st) -> b < List.length (memory st ++ e1)) by (intros b I; rewrite app_length; specialize (G b I); lia).
    destruct (IH (St (memory st ++ e1) (objects st) (held st)) m2 vs2 G' FF) as ((e2 & E2) & H1 & H2 & H3). cbn [memory] in E2.
    assert (NM : forall b t, nth_error (memory st ++ e1) b = Some t -> nth_error m2 b = Some t).
    { intros b t NB. rewrite E2, nth_app_old; [exact NB|]. eapply nth_len; exact NB. }
    split; [exists (e1 ++ e2); rewrite E2; now rewrite app_assoc|]. split; [|split].
    + intros name v I. assert (I' : (ov = Some v /\ name = n) \/ In (name, v) vs2).
      { destruct ov as [v'|]; [|right; exact I]. destruct I as [I|I]; [|right; exact I]. injection I as <- <-. left. now split. }
      destruct I' as [(-> & ->)|I'].
      * destruct OV as (t & C & NB & S & R). exists a, t. split; [left; reflexivity|]. split; [exact C|]. split; [apply NM; exact NB|]. now split.
      * destruct (H1 name v I') as (a' & t & IA & C & NB & S & R). exists a', t. split; [right; exact IA|]. rewrite content_more in C by exact G. now repeat split.
    + intros name a' t [I|I] C.
      * injection I as <- <-. destruct ov as [v|]; [exists v; left; reflexivity|]. rewrite C in OV. discriminate.
      * rewrite <- (content_more st e1) in C by exact G. destruct (H2 name a' t I C) as (v & IV). exists v. destruct ov; [right|]; exact IV.
    + cbn [map]. intros ND. apply NoDup_cons_iff in ND. destruct ND as (NI & ND). specialize (H3 ND). destruct ov as [v|]; [|exact H3]. cbn [map fst]. constructor; [|exact H3].
      intros I. apply in_map_iff in I. destruct I as ([n' w] & E & I). cbn in E. subst n'. destruct (H1 n w I) as (a' & t & IA & _). apply NI. apply in_map_iff. exists (n, a'). now split.
Qed.
Lemma rmap_in2 {A B} (f : A -> result B) l : forall l', rmap f l = Ok l' -> forall x, In x l -> exists y, In y l' /\ f x = Ok y.
Proof.
  induction l as [|a l IH]; cbn; intros l' H x I; [easy|].
  destruct (f a) as [b|] eqn:F; [|discriminate]. destruct (rmap f l) as [l2|] eqn:G; [|discriminate]. injection H as <-.
  destruct I as [<-|I]; [exists b; split; [left; reflexivity|exact F]|]. destruct (IH _ eq_refl x I) as (y & I' & E). exists y. split; [right; exact I'|exact E].
Qed.
Lemma expand_names n vs : forall l, rmap (fun q => v <- expand n (snd q) ;; Ok (fst q, Tensor v)) vs = Ok l -> map fst l = map (@fst string view) vs.
Proof.
  induction vs as [|[m v] vs IH]; cbn; intros l H; [injection H as <-; reflexivity|]. destruct (expand n v); [|discriminate]. cbn [rbind fst] in H.
  destruct rmap as [l2|]; [|discriminate]. injection H as <-. cbn. f_equal. now apply IH.
Qed.
Lemma find_attr_in l name a : NoDup (map fst l) -> In (name, a) l -> find_attr l name = Some a.
Proof.
  induction l as [|[n b] l IH]; [easy|]. cbn [map]. intros ND I. apply NoDup_cons_iff in ND. destruct ND as (NI & ND). rewrite find_attr_cons. destruct I as [I|I].
  - injection I as -> ->. now rewrite String.eqb_refl.
  - destruct (String.eqb_spec n name) as [->|]; [|now apply IH]. exfalso. apply NI. apply in_map_iff. exists (name, a). now split.
Qed.
Lemma find_attr_app l1 l2 name : find_attr l1 name = None -> find_attr (l1 ++ l2) name = find_attr l2 name.
Proof.
  induction l1 as [|[n b] l1 IH]; [reflexivity|]. rewrite <- app_comm_cons, !find_attr_cons. destruct (String.eqb n name); [discriminate|exact IH].
Qed.
Lemma flags_find kw name a : NoDup (map fst kw) -> In (name, a) kw -> a <> Flag -> find_attr (flags kw) name = None.
Proof.
  induction kw as [|[n b] kw IH]; [easy|]. cbn [map]. intros ND I NF. apply NoDup_cons_iff in ND. destruct ND as (NI & ND).
  assert (Q : forall nm, find_attr (flags kw) nm <> None -> In nm (map fst kw)).
  { intros nm Q. unfold find_attr in Q. destruct find as [[m x]|] eqn:FF in Q; [|congruence]. apply find_some in FF. destruct FF as (FI & FE). apply String.eqb_eq in FE. cbn in FE. subst m.
    unfold flags in FI. apply in_flat_map in FI. destruct FI as ([m y] & I1 & I2). destruct y; cbn in I2; try easy. destruct I2 as [I2|[]]. injection I2 as <- _. apply in_map_iff. exists (m, Flag). now split. }
  destruct I as [I|I].
  - injection I as -> ->. assert (E : flags ((name, a) :: kw) = flags kw) by (destruct a; try reflexivity; contradiction). rewrite E.
    destruct (find_attr (flags kw) name) eqn:FA; [|reflexivity]. exfalso. apply NI, Q. cbn [fst]. rewrite FA. discriminate.
  - destruct b; try (apply IH; assumption). change (flags ((n, Flag) :: kw)) with ((n, Plain) :: flags kw). rewrite find_attr_cons.
    destruct (String.eqb_spec n name) as [->|]; [|now apply IH]. exfalso. apply NI. apply in_map_iff. exists (name, a). now split.
Qed.

Lemma built_eval st kw st' : good st -> NoDup (map fst kw) -> construct st kw = Ok st' ->
  exists ob, nth_error (objects st') (List.length (objects st)) = Some ob /\
    (forall name a t, In (name, a) kw -> content st a = Some t ->
       (size_of t = 1 \/ size_of t = count ob) /\ size_of t <= count ob /\
       (forall i, i < count ob -> agree (getitem st' (List.length (objects st)) (elem i) name)
                                       (Ok (T (List.tl (shp t)) (fun js => get t ((if size_of t =? 1 then 0 else i) :: js))))) /\
       (forall i, count ob <= i -> getitem st' (List.length (objects st)) (elem i) name = Fail EIndex)) /\
    ((forall name a, In (name, a) kw -> content st a = None) \/ exists name a t, In (name, a) kw /\ content st a = Some t /\ size_of t = count ob).
Proof.
  intros (_ & G2) ND H. unfold construct in H. destruct (formats st kw) as [[mem vs]|] eqn:F; [|discriminate]. cbn [rbind fst snd] in H. set (n := max_nat _) in H.
  destruct rmap as [l|] eqn:R; [|discriminate]. cbn [rbind] in H. injection H as <-. exists (Obj n (flags kw ++ l)). cbn [objects memory count].
  rewrite nth_error_app2, Nat.sub_diag by lia. split; [reflexivity|]. destruct (formats_spec _ _ _ _ G2 F) as (_ & H1 & H2 & H3). specialize (H3 ND). split.
  - intros name a t I C. destruct (H2 name a t I C) as (v & IV). destruct (H1 name v IV) as (a' & t' & IA & C' & NB & S & RP).
    assert (a' = a). { clear - ND I IA. induction kw as [|[n b] kw IH]; [easy|]. cbn [map] in ND. apply NoDup_cons_iff in ND. destruct ND as (NI & ND).
      destruct I as [I|I], IA as [IA|IA]; try congruence; [| |now apply IH].
      - injection I as -> ->. exfalso. apply NI. apply in_map_iff. exists (name, a'). now split.
      - injection IA as -> ->. exfalso. apply NI. apply in_map_iff. exists (name, a). now split. }
    subst a'. rewrite C in C'. injection C' as <-.
    destruct (rmap_in2 _ _ _ R (name, v) IV) as (y & IY & EY). cbn [fst snd] in EY. destruct (expand n v) as [w|] eqn:X; [|discriminate]. cbn [rbind] in EY. injection EY as <-.
    assert (FL : find_attr (flags kw ++ l) name = Some (Tensor w)).
    { rewrite find_attr_app. - apply find_attr_in; [rewrite (expand_names _ _ _ R); exact H3|exact IY]. - apply (flags_find kw name a ND I). intros ->. discriminate C. }
    assert (SZ : size_of t = rows v) by (unfold size_of; rewrite S; reflexivity). rewrite SZ, S. cbn [List.tl].
    assert (LE : rows v <= n). { apply max_nat_ge. apply in_map_iff. exists (name, v). now split. }
    assert (GI : forall ix, getitem (St mem (objects st ++ [Obj n (flags kw ++ l)]) (held st)) (List.length (objects st)) ix name =
      p <- span (rows w) ix ;; match nth_error mem (block w) with None => Fail EIndex | Some t =>
        Ok (T (dims ix (snd p) (tail w)) (fun idx => get t ((if repeated w then 0 else fst p + row_of ix idx) :: rest_of ix idx))) end).
    { intros ix. unfold getitem. cbn [objects memory]. rewrite nth_error_app2, Nat.sub_diag by lia. cbn [nth_error]. rewrite lookup_find. cbn [attrs]. rewrite FL. reflexivity. }
    unfold expand in X. destruct (Nat.eqb_spec (rows v) 1) as [E1|E1], (Nat.eqb_spec (rows v) n) as [En|En]; cbn [negb andb] in X; try discriminate X; injection X as <-.
    + split; [left; exact E1|]. split; [exact LE|]. split.
      * intros i Hi. rewrite GI, span_elem by lia. cbn [rbind fst snd]. rewrite NB. split; [reflexivity|]. intros idx _. cbn [get row_of rest_of elem]. rewrite RP. replace (i + 0) with 0 by lia. reflexivity.
      * intros i Hi. rewrite GI, span_elem_out by lia. reflexivity.
    + split; [left; exact E1|]. split; [exact LE|]. cbn [rows block tail repeated] in GI. split.
      * intros i Hi. rewrite GI, span_elem by lia. cbn [rbind fst snd]. rewrite NB. split; [reflexivity|]. intros idx _. reflexivity.
      * intros i Hi. rewrite GI, span_elem_out by lia. reflexivity.
    + split; [right; exact En|]. split; [exact LE|]. split.
      * intros i Hi. rewrite GI, span_elem by lia. cbn [rbind fst snd]. rewrite NB. split; [reflexivity|]. intros idx _. cbn [get row_of rest_of elem]. rewrite RP, Nat.add_0_r. reflexivity.
      * intros i Hi. rewrite GI, span_elem_out by lia. reflexivity.
  - destruct vs as [|[nm v] vs'] eqn:EV.
    + left. intros name a I. destruct (content st a) as [t|] eqn:C; [|reflexivity]. destruct (H2 name a t I C) as (v & []).
    + right. assert (IM : In n (map (fun q : string * view => rows (snd q)) vs)) by (subst vs; apply max_nat_in; discriminate). rewrite EV in IM.
      apply in_map_iff in IM. destruct IM as ([nm2 v2] & E & I2). destruct (H1 nm2 v2 I2) as (a & t & IA & C & _ & S & _). exists nm2, a, t. split; [exact IA|]. split; [exact C|].
      unfold size_of. rewrite S. exact E.
Qed.

Lemma refuses_eval st kw n1 a1 t1 n2 a2 t2 : good st ->
  (forall name k, In (name, Held k) kw -> exists t, tensor_of st k = Some t /\ shp t <> []) ->
  In (n1, a1) kw -> content st a1 = Some t1 -> In (n2, a2) kw -> content st a2 = Some t2 ->
  size_of t1 <> 1 -> size_of t2 <> 1 -> size_of t1 <> size_of t2 -> construct st kw = Fail EValue.
Proof.
  intros (_ & G2) HK I1 C1 I2 C2 S1 S2 S12. unfold construct.
  assert (FO : exists p, formats st kw = Ok p).
  { clear I1 C1 I2 C2. revert st G2 HK. induction kw as [|[n a] kw IH]; intros st G2 HK; [eexists; reflexivity|]. cbn [formats].
    assert (FA : exists m ov, format st a = Ok (m, ov)).
    { destruct a as [t|k| |]; cbn [format]; try (do 2 eexists; reflexivity).
      - destruct (batched (shp t)) eqn:B; [destruct (shp t); discriminate|]. do 2 eexists; reflexivity.
      - destruct (HK n k (or_introl eq_refl)) as (t & T1 & T2). unfold tensor_of, content in T1. destruct (nth_error (held st) k); [|discriminate]. rewrite T1. destruct (shp t); [contradiction|]. do 2 eexists; reflexivity. }
    destruct FA as (m & ov & FA). rewrite FA. cbn [rbind fst snd]. destruct (format_spec st n a m ov FA) as ((e & ->) & _).
    destruct (IH (St (memory st ++ e) (objects st) (held st))) as (p & ->).
    - cbn. intros b I. rewrite app_length. specialize (G2 b I). lia.
    - intros name k I. destruct (HK name k (or_intror I)) as (t & T1 & T2). exists t. split; [|exact T2]. unfold tensor_of. rewrite content_more by exact G2. exact T1.
    - cbn [rbind]. eexists; reflexivity. }
  destruct FO as ([mem vs] & FO). rewrite FO. cbn [rbind fst snd]. destruct (formats_spec _ _ _ _ G2 FO) as (_ & H1 & H2 & _).
  set (n := max_nat _).
  assert (BAD : exists q, In q vs /\ rows (snd q) <> 1 /\ rows (snd q) <> n).
  { assert (SZ : forall nm a t, In (nm, a) kw -> content st a = Some t -> exists q, In q vs /\ rows (snd q) = size_of t).
    { clear - FO G2. intros nm a t I C. revert st mem vs G2 FO C. induction kw as [|[n' a'] kw IH]; [easy|]. intros st mem vs G2 FO C. cbn [formats] in FO.
      destruct (format st a') as [[m1 ov]|] eqn:F; [|discriminate]. cbn [rbind fst snd] in FO. destruct (formats (St m1 (objects st) (held st)) kw) as [[m2 vs2]|] eqn:FF; [|discriminate]. cbn [rbind fst snd] in FO. injection FO as <- <-.
      destruct (format_spec st n' a' m1 ov F) as ((e & ->) & OV & _). destruct I as [I|I].
      - injection I as -> ->. destruct ov as [v|]; [|rewrite C in OV; discriminate]. destruct OV as (t' & C' & _ & S & _). rewrite C in C'. injection C' as <-. exists (nm, v). split; [left; reflexivity|]. unfold size_of. rewrite S. reflexivity.
      - assert (G' : forall b, In b (held st) -> b < List.length (memory st ++ e)) by (intros b J; rewrite app_length; specialize (G2 b J); lia).
        rewrite <- (content_more st e) in C by exact G2.
        destruct (IH I (St (memory st ++ e) (objects st) (held st)) m2 vs2 G' FF C) as (q & IQ & EQ).
        exists q. split; [destruct ov; [right|]; exact IQ|exact EQ]. }
    destruct (SZ _ _ _ I1 C1) as (q1 & Q1 & E1). destruct (SZ _ _ _ I2 C2) as (q2 & Q2 & E2).
    destruct (Nat.eq_dec (rows (snd q1)) n) as [E|E]; [exists q2|exists q1]; (split; [assumption|]); lia. }
  destruct BAD as (q & IQ & B1 & B2). clearbody n.
  assert (RF : rmap (fun q => v <- expand n (snd q) ;; Ok (fst q, Tensor v)) vs = Fail EValue).
  { clear - IQ B1 B2. induction vs as [|p vs IH]; [easy|]. cbn [rmap]. unfold expand at 1. destruct ((negb (rows (snd p) =? 1) && negb (rows (snd p) =? n))%bool) eqn:E; [reflexivity|]. cbn [rbind].
    destruct IQ as [->|IQ].
    - exfalso. apply Nat.eqb_neq in B1. apply Nat.eqb_neq in B2. rewrite B1, B2 in E. discriminate.
    - rewrite (IH IQ). reflexivity. }
  rewrite RF. reflexivity.
Qed.
