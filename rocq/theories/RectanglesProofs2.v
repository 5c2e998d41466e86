From Verif Require Import Base Rectangles RectanglesSpec RectanglesProofs.
Local Open Scope Z_scope.

Definition table (ids : list Z) : list (Z * nat) := rev (combine ids (seq 0 (length ids))).
Lemma table_snoc ids id : table (ids ++ [id]) = (id, length ids) :: table ids.
Proof.
  unfold table. rewrite app_length. cbn [length]. rewrite seq_app. cbn [seq]. rewrite <- rev_unit. f_equal.
  assert (G : forall a b (x y : list nat), length a = length x -> combine (a ++ b : list Z) (x ++ y) = combine a x ++ combine b y).
  { induction a as [|p a IH]; intros b [|q x] y H; cbn in *; try discriminate; [reflexivity|]. f_equal. apply IH. lia. }
  rewrite G by (rewrite seq_length; reflexivity). reflexivity.
Qed.
Lemma combine_seq_in (ids : list Z) : forall k id j, In (id, j) (combine ids (seq k (length ids))) <-> exists i, j = (k + i)%nat /\ nth_error ids i = Some id.
Proof.
  induction ids as [|a ids IH]; intros k id j; cbn [combine seq length].
  - split; [intros []|]. intros (i & _ & H). destruct i; discriminate.
  - split.
    + intros [H|H]; [injection H as -> ->; exists 0%nat; split; [lia|reflexivity]|]. apply IH in H. destruct H as (i & -> & H). exists (S i). split; [lia|exact H].
    + intros ([|i] & -> & H); [left; injection H as ->; f_equal; lia|]. right. apply IH. exists i. split; [lia|exact H].
Qed.
Lemma table_find ids id : match find (fun p => fst p =? id) (table ids) with None => ~ In id ids | Some p => nth_error ids (snd p) = Some id end.
Proof.
  destruct (find (fun p => fst p =? id) (table ids)) as [(i & j)|] eqn:E.
  - apply find_some in E. destruct E as (E1 & E2). cbn in *. apply Z.eqb_eq in E2. subst i. unfold table in E1. apply in_rev in E1. apply combine_seq_in in E1. destruct E1 as (i & -> & H). exact H.
  - intros H. apply In_nth_error in H. destruct H as (j & H). assert (I : In (id, j) (table ids)) by (unfold table; apply -> in_rev; apply combine_seq_in; exists j; split; [lia|exact H]).
    apply (find_none _ _ E) in I. cbn in I. lia.
Qed.

Lemma dedup_ok L : forall l ids us inputs us', NoDup ids -> length us = length ids -> (forall j s id, nth_error us j = Some s -> nth_error ids j = Some id -> In (s, id) L) -> incl l L ->
  dedup l (table ids) us = (inputs, us') ->
  exists ids', NoDup ids' /\ length us' = length ids' /\ (forall j s id, nth_error us' j = Some s -> nth_error ids' j = Some id -> In (s, id) L) /\
    (forall j id, nth_error ids j = Some id -> nth_error ids' j = Some id) /\ (length us <= length us')%nat /\
    Forall2 (fun r p => nth_error ids' (fst p) = Some (snd r)) l inputs /\
    (forall i r p, nth_error l i = Some r -> nth_error inputs i = Some p -> (snd p = true <-> (~ In (snd r) ids /\ first_of l i))).
Proof.
  unfold first_of, rect in *. induction l as [|(s, id) l IH]; intros ids us inputs us' Hn Hl Hin HL E; cbn [dedup] in E.
  - injection E as <- <-. exists ids. split; [exact Hn|]. split; [exact Hl|]. split; [exact Hin|]. split; [auto|]. split; [lia|]. split; [constructor|]. intros i r p H. destruct i; discriminate.
  - pose proof (table_find ids id) as T. destruct (find (fun p => fst p =? id) (table ids)) as [p|].
    + destruct (dedup l (table ids) us) as (inp, u2) eqn:E2. cbn [fst snd] in E. injection E as <- <-.
      destruct (IH ids us inp u2 Hn Hl Hin (fun x H => HL x (or_intror H)) E2) as (ids' & H1 & H2 & H3 & H4 & H5 & H6 & H7).
      exists ids'. split; [exact H1|]. split; [exact H2|]. split; [exact H3|]. split; [exact H4|]. split; [exact H5|]. split; [constructor; [apply H4; exact T|exact H6]|].
      intros [|i] r q Hr Hq; cbn in Hr, Hq.
      * injection Hr as <-. injection Hq as <-. cbn. split; [discriminate|]. intros (C & _). exfalso. apply C. eapply nth_error_In. exact T.
      * rewrite (H7 i r q Hr Hq). split; intros (A & B); (split; [exact A|]).
        -- intros [|j] r1 r2 Lj J1 J2; cbn in J1, J2.
           ++ injection J2 as <-. cbn. intros C. apply A. rewrite Hr in J1. injection J1 as <-. rewrite <- C. eapply nth_error_In. exact T.
           ++ eapply (B j); eauto. lia.
        -- intros j r1 r2 Lj J1 J2. apply (B (S j)); auto. lia.
    + rewrite Hl in E. rewrite <- table_snoc in E. destruct (dedup l (table (ids ++ [id])) (us ++ [s])) as (inp, u2) eqn:E2. cbn [fst snd] in E. injection E as <- <-.
      destruct (IH (ids ++ [id]) (us ++ [s]) inp u2) as (ids' & H1 & H2 & H3 & H4 & H5 & H6 & H7); auto.
      * apply Permutation_NoDup with (l := id :: ids); [apply Permutation_cons_append|]. constructor; assumption.
      * rewrite !app_length. cbn. lia.
      * intros j s0 id0 J1 J2. destruct (Nat.lt_ge_cases j (length us)) as [Lj|Lj].
        -- rewrite nth_error_app1 in J1 by exact Lj. rewrite nth_error_app1 in J2 by lia. eauto.
        -- rewrite nth_error_app2 in J1 by exact Lj. rewrite nth_error_app2 in J2 by lia. rewrite <- Hl in J2. destruct (j - length us)%nat as [|[|k]]; cbn in J1, J2; try discriminate.
           injection J1 as <-. injection J2 as <-. apply HL. left. reflexivity.
      * intros x Hx. apply HL. right. exact Hx.
      * assert (N : nth_error (ids ++ [id]) (length ids) = Some id) by (rewrite nth_error_app2, Nat.sub_diag by lia; reflexivity).
        exists ids'. split; [exact H1|]. split; [exact H2|]. split; [exact H3|]. split; [|split; [rewrite app_length in H5; cbn in H5; lia|split]].
        -- intros j i J. apply H4. rewrite nth_error_app1; [exact J|]. apply nth_error_Some. congruence.
        -- constructor; [cbn; apply H4; exact N|exact H6].
        -- intros [|i] r q Hr Hq; cbn in Hr, Hq.
           ++ injection Hr as <-. injection Hq as <-. cbn. split; [intros _|reflexivity]. split; [exact T|]. intros j ? ? Lj. lia.
           ++ rewrite (H7 i r q Hr Hq). split; intros (A & B).
              ** split; [intros C; apply A, in_or_app; left; exact C|]. intros [|j] r1 r2 Lj J1 J2; cbn in J1, J2; [|eapply (B j); eauto; lia].
                 injection J2 as <-. cbn. intros C. apply A. rewrite Hr in J1. injection J1 as <-. rewrite <- C. apply in_or_app. right. left. reflexivity.
              ** split; [|intros j r1 r2 Lj J1 J2; apply (B (S j)); auto; lia]. intros C. apply in_app_or in C. destruct C as [C|[C|[]]]; [contradiction|].
                 apply (B 0%nat r (s, id)); [lia|exact Hr|reflexivity|exact C].
Qed.

Definition unique_layout (l : list rect) (sheet : Z * Z) (locs : list place) : Prop :=
  length locs = length l /\
  (forall i r p, nth_error l i = Some r -> nth_error locs i = Some p -> within sheet (fst r) p /\ (is_first p = true <-> first_of l i)) /\
  (forall i j r p r' p', nth_error l i = Some r -> nth_error locs i = Some p -> nth_error l j = Some r' -> nth_error locs j = Some p' ->
     (snd r = snd r' -> px p = px p' /\ py p = py p' /\ flipped p = flipped p') /\
     (snd r <> snd r' -> forall x y, contains (fst r) p x y -> contains (fst r') p' x y -> False)).

Lemma nodup_nth_inj {A} (l : list A) i j x : NoDup l -> nth_error l i = Some x -> nth_error l j = Some x -> i = j.
Proof. intros H H1 H2. rewrite NoDup_nth_error in H. apply H; [apply nth_error_Some; congruence|congruence]. Qed.

Theorem unique_ok l : (2 <= length l)%nat -> Forall (fun r => positive (fst r)) l -> same_sizes l -> exists sheet locs, pack_unique l = Ok (sheet, locs) /\ unique_layout l sheet locs.
Proof.
  unfold unique_layout, same_sizes, first_of, rect in *. intros HL Hp Hs. unfold pack_unique, rect. destruct (Nat.ltb_spec (length l) 2) as [Z|_]; [lia|].
  destruct (dedup l [] []) as (inputs, us) eqn:E. change (@nil (Z * nat)) with (table []) in E.
  destruct (dedup_ok l l [] [] inputs us (NoDup_nil _) eq_refl) as (ids & H1 & H2 & H3 & _ & _ & H6 & H7); auto.
  { intros j s id H. destruct j; discriminate. } { intros x H. exact H. }
  assert (Hsz : forall i r p, nth_error l i = Some r -> nth_error inputs i = Some p -> nth_error us (fst p) = Some (fst r) /\ nth_error ids (fst p) = Some (snd r)).
  { intros i r p Hi Hj. assert (J : nth_error ids (fst p) = Some (snd r)).
    { clear - H6 Hi Hj. revert i Hi Hj. induction H6 as [|r0 p0 l0 q0 H _ IH]; intros [|i] Hi Hj; cbn in *; try discriminate; [congruence|]. eapply IH; eassumption. }
    split; [|exact J]. destruct (nth_error us (fst p)) as [s|] eqn:Es.
    - f_equal. pose proof (H3 _ _ _ Es J) as I. exact (Hs (s, snd r) r I (nth_error_In _ _ Hi) eq_refl).
    - apply nth_error_None in Es. assert (fst p < length ids)%nat by (apply nth_error_Some; congruence). lia. }
  assert (Li : length inputs = length l) by (clear - H6; induction H6; cbn; congruence).
  assert (Hfirst : forall i r p, nth_error l i = Some r -> nth_error inputs i = Some p -> (snd p = true <-> first_of l i)).
  { intros i r p Hi Hj. rewrite (H7 i r p Hi Hj). cbn. tauto. }
  assert (Hpu : Forall positive us).
  { apply Forall_forall. intros s I. apply In_nth_error in I. destruct I as (j & J). destruct (nth_error ids j) as [id|] eqn:Ej.
    - pose proof (H3 _ _ _ J Ej) as I. rewrite Forall_forall in Hp. exact (Hp _ I).
    - apply nth_error_None in Ej. assert (j < length us)%nat by (apply nth_error_Some; congruence). lia. }
  assert (Gen : forall sheet locs0, layout us sheet locs0 -> exists locs, rmap (fun p => loc <- rget locs0 (fst p) ;; Ok (Place (px loc) (py loc) (flipped loc) (snd p))) inputs = Ok locs /\ unique_layout l sheet locs).
  { intros sheet locs0 (A1 & A2 & A3).
    assert (G : exists locs, rmap (fun p => loc <- rget locs0 (fst p) ;; Ok (Place (px loc) (py loc) (flipped loc) (snd p))) inputs = Ok locs /\
      Forall2 (fun p q => exists loc, nth_error locs0 (fst p) = Some loc /\ q = Place (px loc) (py loc) (flipped loc) (snd p)) inputs locs).
    { assert (B : Forall (fun p => (fst p < length locs0)%nat) inputs).
      { clear - H6 H2 A1. induction H6 as [|r0 p0 l0 q0 H _ IH]; constructor; [|exact IH]. rewrite A1, H2. apply nth_error_Some. congruence. }
      clear - B. induction B as [|p q Hp _ (locs & E & F)]; [exists []; split; [reflexivity|constructor]|]. cbn [rmap]. unfold rget at 1.
      destruct (nth_error locs0 (fst p)) as [loc|] eqn:El; [|apply nth_error_None in El; lia]. cbn [rbind]. rewrite E. cbn [rbind]. eexists. split; [reflexivity|]. constructor; [|exact F]. exists loc. split; [exact El|reflexivity]. }
    destruct G as (locs & E1 & F). exists locs. split; [exact E1|].
    assert (G : forall i q, nth_error locs i = Some q -> exists p loc, nth_error inputs i = Some p /\ nth_error locs0 (fst p) = Some loc /\ q = Place (px loc) (py loc) (flipped loc) (snd p)).
    { clear - F. induction F as [|p q ps qs (loc & H) _ IH]; intros [|i] q0 Hq; cbn in Hq; try discriminate; [injection Hq as <-; exists p, loc; split; [reflexivity|exact H]|]. exact (IH i q0 Hq). }
    split; [transitivity (length inputs); [clear - F; induction F; cbn; congruence|exact Li]|]. split.
    - intros i r q Hr Hq. destruct (G i q Hq) as (p & loc & P1 & P2 & ->). destruct (Hsz i r p Hr P1) as (S1 & S2). destruct (A2 _ _ _ S1 P2) as (_ & W). split; [exact W|]. cbn. exact (Hfirst i r p Hr P1).
    - intros i j r q r' q' Hr Hq Hr' Hq'. destruct (G i q Hq) as (p & loc & P1 & P2 & ->). destruct (G j q' Hq') as (p' & loc' & P1' & P2' & ->).
      destruct (Hsz i r p Hr P1) as (S1 & S2). destruct (Hsz j r' p' Hr' P1') as (S1' & S2'). cbn. split.
      + intros C. rewrite <- C in S2'. rewrite (nodup_nth_inj ids _ _ _ H1 S2 S2') in P2. rewrite P2 in P2'. injection P2' as <-. auto.
      + intros C x y D D'. refine (A3 (fst p) (fst p') (fst r) loc (fst r') loc' x y _ S1 P2 S1' P2' D D'). intros Z. rewrite Z in S2. congruence. }
  destruct us as [|s [|s' us']].
  - exfalso. destruct l as [|r l]; [cbn in HL; lia|]. destruct inputs as [|p inp]; [discriminate|]. destruct (Hsz 0%nat r p eq_refl eq_refl) as (S1 & _). destruct (fst p); discriminate.
  - exists s. eexists. split; [reflexivity|].
    assert (J : forall i r p, nth_error l i = Some r -> nth_error inputs i = Some p -> fst p = 0%nat /\ fst r = s /\ nth_error ids 0 = Some (snd r)).
    { intros i r p Hi Hj. destruct (Hsz i r p Hi Hj) as (S1 & S2). destruct (fst p) as [|[|k]]; cbn in S1; try discriminate. split; [reflexivity|]. split; [congruence|exact S2]. }
    assert (Jl : forall i r, nth_error l i = Some r -> fst r = s /\ nth_error ids 0 = Some (snd r)).
    { intros i r Hi. destruct (nth_error inputs i) as [p|] eqn:Ep; [exact (proj2 (J i r p Hi Ep))|]. apply nth_error_None in Ep. assert (i < length l)%nat by (apply nth_error_Some; congruence). lia. }
    assert (Q : forall i q, nth_error (Place 0 0 false true :: repeat (Place 0 0 false false) (length l - 1)) i = Some q -> q = Place 0 0 false (i =? 0)%nat).
    { intros [|i] q Hq; cbn in Hq; [injection Hq as <-; reflexivity|]. apply nth_error_In in Hq. apply repeat_spec in Hq. subst q. reflexivity. }
    split; [cbn; rewrite repeat_length; lia|]. split.
    + intros i r q Hr Hq. rewrite (Q i q Hq). destruct (Jl i r Hr) as (<- & N). split.
      * unfold within, extent. cbn. lia.
      * cbn. split; [intros C; apply Nat.eqb_eq in C; subst i; intros j ? ? Lj; lia|]. intros F. destruct i as [|i]; [reflexivity|]. exfalso.
        destruct (nth_error l 0) as [r0|] eqn:E0; [|destruct l; [cbn in HL; lia|discriminate]]. destruct (Jl 0%nat r0 E0) as (_ & N0). apply (F 0%nat r r0); [lia|exact Hr|exact E0|congruence].
    + intros i j r q r' q' Hr Hq Hr' Hq'. rewrite (Q i q Hq), (Q j q' Hq'). cbn. split; [auto|]. intros C. exfalso. destruct (Jl i r Hr) as (_ & N), (Jl j r' Hr') as (_ & N'). congruence.
  - destruct (pack_ok (s :: s' :: us') ltac:(cbn; lia) Hpu) as (sheet & locs0 & E1 & Ly). rewrite E1. cbn [rbind fst snd]. destruct (Gen sheet locs0 Ly) as (locs & E3 & U). rewrite E3. cbn [rbind]. exists sheet, locs. split; [reflexivity|exact U].
Qed.
