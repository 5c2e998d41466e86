(* Generic bounded sorted selection, used for the priority queues of the C++ code. *)
From Coq Require Import Sorted.
From Verif Require Import Base.

Section TopK.
Context {E : Type} (ltb : E -> E -> bool).

(* insertion in an ascending list *)
Fixpoint insert (e : E) (q : list E) : list E :=
  match q with
  | [] => [e]
  | x :: q' => if ltb e x then e :: q else x :: insert e q'
  end.
Definition isort (l : list E) : list E := fold_left (fun q e => insert e q) l [].

(* std::priority_queue / sorted std::deque holding tuples, ascending:
   top() is the last element, pop() removes it, emplace inserts *)
Definition pq_top (q : list E) : option E := nth_error q (length q - 1).
Definition pq_pop (q : list E) : list E := removelast q.

(* "emplace; if size > K pop" *)
Definition push_bounded (K : nat) (q : list E) (e : E) : list E :=
  let q' := insert e q in if K <? length q' then pq_pop q' else q'.
End TopK.

(* the K best of l under the strict order ltb, best first *)
Record is_best {E} (ltb : E -> E -> bool) (K : nat) (l r : list E) : Prop := {
  best_len : length r = Nat.min K (length l);
  best_sorted : forall i j a b, i < j -> nth_error r i = Some a -> nth_error r j = Some b -> ltb b a = false;
  best_split : exists rest, Permutation l (r ++ rest) /\
               forall a b, In a r -> In b rest -> ltb b a = false }.

(* strict total order *)
Record strict_total {E} (ltb : E -> E -> bool) : Prop := {
  st_irrefl : forall a, ltb a a = false;
  st_trans : forall a b c, ltb a b = true -> ltb b c = true -> ltb a c = true;
  st_total : forall a b, ltb a b = false -> ltb b a = false -> a = b }.

Section Lemmas.
Context {E : Type} (ltb : E -> E -> bool) (H : strict_total ltb).

Definition le a b := ltb b a = false.
Lemma le_trans a b c : le a b -> le b c -> le a c.
Proof.
  unfold le. intros H1 H2. destruct (ltb c a) eqn:Eca; [|reflexivity]. exfalso.
  destruct (ltb a b) eqn:Eab.
  - rewrite (st_trans _ H c a b) in H2 by assumption. discriminate.
  - assert (a = b) by (apply (st_total _ H); assumption). subst. congruence.
Qed.
Lemma lt_le a b : ltb a b = true -> le a b.
Proof.
  unfold le. intros H1. destruct (ltb b a) eqn:E1; [|reflexivity].
  assert (X := st_trans _ H a b a H1 E1). rewrite (st_irrefl _ H) in X. discriminate.
Qed.
Lemma le_antisym a b : le a b -> le b a -> a = b.
Proof. unfold le; intros; apply (st_total _ H); assumption. Qed.

Lemma insert_perm e q : Permutation (insert ltb e q) (e :: q).
Proof.
  induction q as [|x q IH]; cbn; [reflexivity|]. destruct (ltb e x); [reflexivity|].
  rewrite IH. apply perm_swap.
Qed.
Lemma insert_length e q : length (insert ltb e q) = S (length q).
Proof. rewrite (Permutation_length (insert_perm e q)). reflexivity. Qed.

Lemma insert_sorted e q : StronglySorted le q -> StronglySorted le (insert ltb e q).
Proof.
  induction q as [|x q IH]; intros S; cbn.
  - repeat constructor.
  - destruct (ltb e x) eqn:Ex.
    + constructor; [assumption|]. inversion S; subst. constructor; [apply lt_le; assumption|].
      eapply Forall_impl; [|eassumption]. intros b Hb. eapply le_trans; [apply lt_le; eassumption|assumption].
    + inversion S; subst. constructor; [apply IH; assumption|].
      eapply Permutation_Forall; [symmetry; apply insert_perm|]. constructor; [exact Ex|assumption].
Qed.

Lemma sorted_perm_unique q1 : forall q2, StronglySorted le q1 -> StronglySorted le q2 ->
  Permutation q1 q2 -> q1 = q2.
Proof.
  induction q1 as [|a q1 IH]; intros q2 S1 S2 P.
  - apply Permutation_nil in P. auto.
  - destruct q2 as [|b q2]; [apply Permutation_sym, Permutation_nil in P; discriminate|].
    inversion S1 as [|? ? S1' F1]; inversion S2 as [|? ? S2' F2]; subst.
    assert (a = b).
    { assert (Hb : In b (a :: q1)) by (eapply Permutation_in; [symmetry; exact P|left; reflexivity]).
      assert (Ha : In a (b :: q2)) by (eapply Permutation_in; [exact P|left; reflexivity]).
      rewrite Forall_forall in F1, F2.
      destruct Hb as [|Hb]; [assumption|]. destruct Ha as [|Ha]; [auto|].
      apply le_antisym; auto. }
    subst b. f_equal. apply IH; try assumption. eapply Permutation_cons_inv; eassumption.
Qed.

Lemma isort_acc l : forall q, Permutation (fold_left (fun q e => insert ltb e q) l q) (l ++ q).
Proof.
  induction l as [|a l IH]; intros q; cbn; [reflexivity|].
  rewrite IH, insert_perm. symmetry. apply Permutation_middle.
Qed.
Lemma isort_perm l : Permutation (isort ltb l) l.
Proof. unfold isort. rewrite isort_acc, app_nil_r. reflexivity. Qed.
Lemma isort_acc_sorted l : forall q, StronglySorted le q ->
  StronglySorted le (fold_left (fun q e => insert ltb e q) l q).
Proof. induction l as [|a l IH]; intros q S; cbn; [assumption|]. apply IH, insert_sorted, S. Qed.
Lemma isort_sorted l : StronglySorted le (isort ltb l).
Proof. apply isort_acc_sorted. constructor. Qed.

Lemma isort_perm_eq l l' : Permutation l l' -> isort ltb l = isort ltb l'.
Proof.
  intros P. apply sorted_perm_unique; try apply isort_sorted.
  rewrite !isort_perm. assumption.
Qed.

(* inserting into the K best only looks at the K best *)
Lemma firstn_insert K e q : firstn K (insert ltb e (firstn K q)) = firstn K (insert ltb e q).
Proof.
  revert K; induction q as [|x q IH]; intros K; [rewrite firstn_nil; reflexivity|].
  destruct K as [|K]; [reflexivity|]. cbn [firstn insert].
  destruct (ltb e x); cbn [firstn].
  - f_equal. destruct K as [|K]; [reflexivity|]. rewrite !(firstn_cons K x). f_equal.
    rewrite firstn_firstn. f_equal. lia.
  - f_equal. apply IH.
Qed.

Lemma removelast_firstn {A} (q : list A) : removelast q = firstn (length q - 1) q.
Proof. rewrite removelast_firstn_len. f_equal. lia. Qed.

Lemma push_bounded_firstn K q e : length q <= K -> push_bounded ltb K q e = firstn K (insert ltb e q).
Proof.
  intros HL. unfold push_bounded, pq_pop. rewrite insert_length.
  destruct (K <? S (length q)) eqn:EK.
  - rewrite removelast_firstn, insert_length. f_equal. lia.
  - rewrite firstn_all2; [reflexivity|]. rewrite insert_length. lia.
Qed.

Lemma fold_push K l : forall q qf, q = firstn K qf ->
  fold_left (push_bounded ltb K) l q = firstn K (fold_left (fun q e => insert ltb e q) l qf).
Proof.
  induction l as [|a l IH]; intros q qf Eq; cbn; [assumption|]. apply IH.
  rewrite push_bounded_firstn by (subst; rewrite firstn_length; lia).
  subst q. apply firstn_insert.
Qed.

Lemma fold_push_isort K l : fold_left (push_bounded ltb K) l [] = firstn K (isort ltb l).
Proof. apply fold_push. rewrite firstn_nil. reflexivity. Qed.

Lemma sorted_nth q : StronglySorted le q ->
  forall i j a b, i < j -> nth_error q i = Some a -> nth_error q j = Some b -> le a b.
Proof.
  induction 1 as [|x q S IH F]; intros [|i] [|j] a b L Ha Hb; cbn in *; try lia; try discriminate.
  - injection Ha as <-. rewrite Forall_forall in F. apply F. eapply nth_error_In; eauto.
  - eapply IH; [|eassumption|eassumption]. lia.
Qed.

Lemma firstn_isort_best K l : is_best ltb K l (firstn K (isort ltb l)).
Proof.
  constructor.
  - rewrite firstn_length, (Permutation_length (isort_perm l)). reflexivity.
  - intros i j a b L Ha Hb. rewrite nth_error_firstn in Ha, Hb.
    destruct (i <? K); [|discriminate]. destruct (j <? K); [|discriminate].
    exact (sorted_nth _ (isort_sorted l) i j a b L Ha Hb).
  - exists (skipn K (isort ltb l)). split.
    + rewrite firstn_skipn. symmetry. apply isort_perm.
    + intros a b Ha Hb. apply In_nth_error in Ha as [i Ha]. apply In_nth_error in Hb as [j Hb].
      rewrite nth_error_firstn in Ha. rewrite nth_error_skipn in Hb.
      destruct (i <? K) eqn:Ei; [|discriminate].
      apply (sorted_nth _ (isort_sorted l) i (K + j) a b); [lia|assumption|assumption].
Qed.

(* the specification determines the result *)
Lemma is_best_unique K l r1 r2 : is_best ltb K l r1 -> is_best ltb K l r2 -> r1 = r2.
Proof.
  assert (G : forall r, is_best ltb K l r -> r = firstn K (isort ltb l)).
  { intros r [HL HS [rest [HP HR]]].
    assert (S : StronglySorted le (r ++ isort ltb rest)).
    { assert (HR' : forall a b, In a r -> In b (isort ltb rest) -> le a b).
      { intros a b Ha Hb. apply HR; [assumption|]. eapply Permutation_in; [apply isort_perm|assumption]. }
      clear HP HL HR. induction r as [|a r IH]; cbn; [apply isort_sorted|].
      constructor.
      - apply IH.
        + intros i j x y L Hx Hy. apply (HS (S i) (S j)); [lia|assumption|assumption].
        + intros x y Hx Hy; apply HR'; [right; assumption|assumption].
      - apply Forall_app. split.
        + rewrite Forall_forall. intros b Hb. apply In_nth_error in Hb as [j Hb].
          apply (HS 0 (Datatypes.S j)); [lia|reflexivity|assumption].
        + rewrite Forall_forall. intros b Hb. apply HR'; [left; reflexivity|assumption]. }
    assert (Ei : isort ltb l = r ++ isort ltb rest).
    { apply sorted_perm_unique; [apply isort_sorted|assumption|].
      rewrite isort_perm, HP. apply Permutation_app_head. symmetry. apply isort_perm. }
    assert (Hl : length l = length r + length rest) by (rewrite (Permutation_length HP); apply app_length).
    rewrite Ei, firstn_app.
    destruct (le_lt_dec K (length l)) as [HK|HK].
    - rewrite firstn_all2 by lia. replace (K - length r) with 0 by lia. cbn. rewrite app_nil_r. reflexivity.
    - destruct rest as [|x rest]; [|cbn in Hl; lia]. cbn. rewrite firstn_nil, app_nil_r.
      rewrite firstn_all2 by lia. reflexivity. }
  intros H1 H2. rewrite (G r1), (G r2) by assumption. reflexivity.
Qed.

Lemma is_best_perm K l l' r : Permutation l l' -> is_best ltb K l r -> is_best ltb K l' r.
Proof.
  intros P [HL HS [rest [HP HR]]]. constructor.
  - rewrite HL, (Permutation_length P). reflexivity.
  - assumption.
  - exists rest. split; [|assumption]. rewrite <- P. assumption.
Qed.
End Lemmas.
