(* Different categories while there are enough of them, and the frames a subset filter keeps. *)
From Coq Require Import ZArith Reals String Bool Permutation Sorted Lia Lra.
From Verif Require Import Base RBase Stats SceneSampler SceneSamplerSpec SceneSamplerProofs SceneSamplerProofs2.
Local Open Scope list_scope.

Lemma capped_distinct {A} (x : list A) size c : capped_random_choice x size true (Ok c) -> (size <= Z.of_nat (length x))%Z -> NoDup x -> NoDup c.
Proof. unfold capped_random_choice. intros H L. apply choice_ok in H. destruct H as (_ & _ & H). apply H. apply Z.ltb_ge. exact L. Qed.
Lemma put_new {A} k (v : A) d : ~ In k (map fst d) -> put k v d = d ++ [(k, v)].
Proof. induction d as [|(k', w) d IH]; cbn [put map fst]; intros H; [reflexivity|]. destruct (String.eqb_spec k k') as [->|N]; [exfalso; apply H; left; reflexivity|]. rewrite IH by (intros C; apply H; right; exact C). reflexivity. Qed.
Lemma get_new {A} k (d : list (string * A)) : ~ In k (map fst d) -> get k d = None.
Proof. induction d as [|(k', w) d IH]; cbn [get map fst]; intros H; [reflexivity|]. destruct (String.eqb_spec k k') as [->|N]; [exfalso; apply H; left; reflexivity|]. apply IH. intros C; apply H; right; exact C. Qed.
Lemma counter_distinct l : NoDup l -> counter l = map (fun k => (k, 1%nat)) l.
Proof.
  unfold counter. assert (G : forall d, NoDup (map fst d ++ l) -> counter_loop d l = d ++ map (fun k => (k, 1%nat)) l).
  { induction l as [|x l IH]; intros d ND; cbn [counter_loop map]; [symmetry; apply app_nil_r|]. assert (N : ~ In x (map fst d)) by (intros C; apply NoDup_remove_2 in ND; apply ND, in_or_app; left; exact C). rewrite (get_new x d N), (put_new x _ d N). rewrite IH; [rewrite <- app_assoc; reflexivity|]. rewrite map_app, <- app_assoc. exact ND. }
  intros H. exact (G [] H).
Qed.
Lemma sequences_apart c D k chosen : category_aware c = true -> well_formed D -> (k <= Z.of_nat (length (category_to_names D)))%Z -> choose_sequences c D k (Ok chosen) ->
  forall cat names s1 s2, In (cat, names) (category_to_names D) -> In s1 chosen -> In s2 chosen -> In s1 names -> In s2 names -> s1 = s2.
Proof.
  intros Hc (_ & _ & _ & WK & WN) Hk. unfold choose_sequences. rewrite Hc, nbind_ok. intros (cats & HC & H). rewrite nbind_ok in H. destruct H as (runs & HR & E). injection E as ->. apply nmap_ok in HR.
  apply capped_distinct in HC; [|rewrite map_length; exact Hk|exact WK]. rewrite (counter_distinct cats HC) in HR. intros cat names s1 s2 Hin I1 I2 N1 N2. apply In_nth_error in Hin. destruct Hin as (i & Hi).
  assert (X : forall s, In s (concat runs) -> In s names -> exists j r, nth_error cats j = Some cat /\ nth_error runs j = Some r /\ r = [s]).
  { intros s Hs Hn. apply in_concat in Hs. destruct Hs as (r & Hr & Is). apply In_nth_error in Hr. destruct Hr as (j & Hj).
    assert (Y : exists q, nth_error cats j = Some q /\ (match get q (category_to_names D) with Some names => capped_random_choice names 1 false | None => nret (Fail EIndex) end) (Ok r)).
    { clear -HR Hj. revert cats j HR Hj. induction runs as [|r0 runs IH]; intros [|q cats] [|j] HR Hj; cbn in Hj; try discriminate; inversion HR as [|a b l l' H1 H2]; subst.
      - injection Hj as <-. exists q. split; [reflexivity|exact H1].
      - destruct (IH cats j H2 Hj) as (q' & Q1 & Q2). exists q'. split; assumption. }
    destruct Y as (q & Eq & Hq). destruct (get q (category_to_names D)) as [names'|] eqn:EG; [|discriminate]. apply capped_ok in Hq. destruct Hq as (Lq & Iq & _). destruct (get_nth _ _ _ EG) as (i' & Hi').
    assert (i = i'). { apply (concat_disjoint (map snd (category_to_names D)) i i' names names' s WN); [rewrite nth_error_map; rewrite Hi; reflexivity|rewrite nth_error_map; rewrite Hi'; reflexivity|exact Hn|apply Iq; exact Is]. }
    subst i'. rewrite Hi in Hi'. injection Hi' as E1 _. exists j, r. rewrite E1. split; [exact Eq|]. split; [exact Hj|]. destruct r as [|a [|a' r]]; [destruct Is| |cbn [length] in Lq; lia]. destruct Is as [->|[]]. reflexivity. }
  destruct (X s1 I1 N1) as (j1 & r1 & C1 & R1 & ->). destruct (X s2 I2 N2) as (j2 & r2 & C2 & R2 & ->).
  assert (j1 = j2). { apply (proj1 (NoDup_nth_error cats) HC); [apply nth_error_Some; congruence|congruence]. } subst j2. rewrite R1 in R2. injection R2 as E. exact E.
Qed.
Theorem batch_categories c D b : well_formed D -> category_aware c = true -> (batch_size c <= Z.of_nat (length (category_to_names D)))%Z -> sample_batch c D (Ok b) ->
  forall i j s1 s2 cat names, In i (b_frames b) -> In j (b_frames b) -> In i (indices_of D s1) -> In j (indices_of D s2) -> In (cat, names) (category_to_names D) -> In s1 names -> In s2 names -> s1 = s2.
Proof.
  intros W Hc HB H i j s1 s2 cat names Ii Ij H1 H2 Hcat N1 N2. destruct (batch_ok c D b W H) as (n & chosen & runs & _ & Hn & HS & HR & E & _). rewrite E in Ii, Ij.
  assert (K : forall x s, In x (firstn (Z.to_nat (batch_size c)) (concat runs)) -> In x (indices_of D s) -> In s chosen).
  { intros x s Hx Hs. assert (Hx' : In x (concat runs)) by (rewrite <- (firstn_skipn (Z.to_nat (batch_size c)) (concat runs)); apply in_or_app; left; exact Hx). clear -W HR Hx' Hs.
    induction HR as [|name r chosen runs Hr HR IH]; [destruct Hx'|]. cbn [concat] in Hx'. apply in_app_or in Hx'. destruct Hx' as [Hx'|Hx']; [|right; apply IH; exact Hx']. left. destruct (contribution_in c D n name r W Hr) as (_ & Ir). destruct W as (_ & _ & W & _). exact (W name s x (Ir x Hx') Hs). }
  destruct (Z.le_gt_cases 1 (batch_size c)) as [P|P].
  2:{ replace (Z.to_nat (batch_size c)) with 0%nat in Ii by lia. destruct Ii. }
  refine (sequences_apart c D _ chosen Hc W _ HS cat names s1 s2 Hcat (K i s1 Ii H1) (K j s2 Ij H2) N1 N2).
  assert (- batch_size c <= - batch_size c / n)%Z; [|lia]. apply Z.div_le_lower_bound; [lia|]. nia.
Qed.
(* with a filter the numbers and times are those of the frames it keeps *)
Theorem filtered_numbers anns name fs l : frames_in_order anns name (Some fs) = Ok l ->
  Permutation (map (fun f => (f_no f, f_ts f)) l) (map (fun a => (a_no a, a_ts a)) (filter (fun a => String.eqb (a_seq a) name && kept_by fs a) anns)).
Proof.
  unfold frames_in_order. change (match get name (seq_to_idx anns) with Some l => l | None => [] end) with (or_nil (get name (seq_to_idx anns))). rewrite idx_ok.
  set (want := map (fun a => (a_no a, a_ts a)) (filter (fun a => String.eqb (a_seq a) name && kept_by fs a) anns)).
  assert (K : numbers_and_timestamps anns (positions anns name) (Some fs) = Ok want /\ (length want <= length (positions anns name))%nat).
  { unfold want, positions, numbers_and_timestamps.
    assert (G : forall l s, (forall i a, In (i, a) (combine (seq s (length l)) l) -> nth_error anns i = Some a) ->
      exists r, rmap (fun i => match nth_error anns i with None => Fail EIndex | Some a => if match a_subset a with Some s => existsb (String.eqb s) fs | None => false end then Ok [(a_no a, a_ts a)] else Ok [] end)
        (map fst (filter (fun p => String.eqb (a_seq (snd p)) name) (combine (seq s (length l)) l))) = Ok r /\ concat r = map (fun a => (a_no a, a_ts a)) (filter (fun a => String.eqb (a_seq a) name && kept_by fs a) l) /\
        (length (filter (fun a => String.eqb (a_seq a) name && kept_by fs a) l) <= length (filter (fun p : nat * annotation => String.eqb (a_seq (snd p)) name) (combine (seq s (length l)) l)))%nat).
    { induction l0 as [|x l0 IH]; intros s H; cbn [length seq combine filter map]; [exists []; repeat split; cbn; lia|]. destruct (IH (S s)) as (r & E & C & L); [intros i a Hia; apply H; right; exact Hia|]. cbn [snd]. destruct (String.eqb (a_seq x) name); cbn [andb].
      - cbn [map fst rmap]. rewrite (H s x (or_introl eq_refl)). change (match a_subset x with Some s0 => existsb (String.eqb s0) fs | None => false end) with (kept_by fs x). destruct (kept_by fs x); cbn [rbind]; rewrite E; cbn [rbind]; eexists; (split; [reflexivity|]); cbn [concat app map length]; rewrite C; (split; [reflexivity|lia]).
      - exists r. split; [exact E|]. split; [exact C|lia]. }
    destruct (G anns 0%nat) as (r & E & C & L); [intros i a Hia; apply combine_nth; exact Hia|]. rewrite E. cbn [rbind]. rewrite C, !map_length. split; [reflexivity|exact L]. }
  destruct K as (E & L). rewrite E. cbn [rbind]. intros H. injection H as <-. eapply Permutation_trans; [apply Permutation_map, sorted_perm|]. rewrite map_map.
  replace (map _ (combine (positions anns name) want)) with want; [apply Permutation_refl|]. clear E. revert L. generalize (positions anns name) as ps. generalize want as w. clear. induction w as [|(z, r) w IH]; intros [|p ps] L; cbn in *; try reflexivity; [lia|]. rewrite <- IH by lia. reflexivity.
Qed.
