(* Shared vocabulary: exceptions as values, array-like lists, list folds. *)
From Coq Require Export List Arith ZArith Lia Bool Permutation.
From Coq Require Export ZifyBool ZifyNat.
Export ListNotations.

(* Exceptions as values. The constructors name the Python / C++ error raised. *)
Inductive err :=
| EValue          (* ValueError *)
| EIndex          (* IndexError *)
| EType           (* TypeError *)
| ERuntime        (* RuntimeError: torch shape mismatch and the like *)
| EAttr           (* AttributeError *)
| EOutOfBounds    (* a C++ memory access outside of the tensor *)
| EFuel.          (* the model ran out of fuel: the loop has not terminated *)

Inductive result (A : Type) :=
| Ok (a : A)
| Fail (e : err).
Arguments Ok {A} a.
Arguments Fail {A} e.

Definition rbind {A B} (r : result A) (f : A -> result B) : result B :=
  match r with Ok a => f a | Fail e => Fail e end.
Notation "x <- r ;; k" := (rbind r (fun x => k))
  (at level 61, r at next level, right associativity).

Fixpoint rmap {A B} (f : A -> result B) (l : list A) : result (list B) :=
  match l with
  | [] => Ok []
  | a :: l' => b <- f a ;; bs <- rmap f l' ;; Ok (b :: bs)
  end.

Fixpoint rfold {S A} (f : S -> A -> result S) (l : list A) (s : S) : result S :=
  match l with
  | [] => Ok s
  | a :: l' => s' <- f s a ;; rfold f l' s'
  end.

(* list update l[i] := v, error when i is out of range *)
Fixpoint upd {A} (l : list A) (i : nat) (v : A) : result (list A) :=
  match l, i with
  | [], _ => Fail EOutOfBounds
  | _ :: l', O => Ok (v :: l')
  | a :: l', S i' => l2 <- upd l' i' v ;; Ok (a :: l2)
  end.

Definition rget {A} (l : list A) (i : nat) : result A :=
  match nth_error l i with Some a => Ok a | None => Fail EOutOfBounds end.

Definition sum_nat (l : list nat) : nat := fold_right Nat.add 0 l.
Definition max_nat (l : list nat) : nat := fold_right Nat.max 0 l.

(* torch.cumsum, dim 0 *)
Fixpoint cumsum_from (acc : nat) (l : list nat) : list nat :=
  match l with
  | [] => []
  | a :: l' => (acc + a) :: cumsum_from (acc + a) l'
  end.
Definition cumsum := cumsum_from 0.

Definition count_if {A} (p : A -> bool) (l : list A) : nat := length (filter p l).

(* the list whose i-th entry is f (k+i) of the i-th entry *)
Fixpoint mapi_from {A} (k : nat) (f : Z -> A -> A) (l : list A) : list A :=
  match l with [] => [] | a :: l' => f (Z.of_nat k) a :: mapi_from (S k) f l' end.

(* ---------- general lemmas ---------- *)

Lemma upd_length {A} (l : list A) i v l' : upd l i v = Ok l' -> length l' = length l.
Proof.
  revert i l'; induction l as [|a l IH]; intros [|i] l' H; cbn in H; try discriminate.
  - injection H as <-; reflexivity.
  - destruct (upd l i v) as [l2|e] eqn:E; cbn in H; [|discriminate].
    injection H as <-; cbn; f_equal; eauto.
Qed.

Lemma upd_ok {A} (l : list A) i v : i < length l -> exists l', upd l i v = Ok l'.
Proof.
  revert i; induction l as [|a l IH]; intros [|i] H; cbn in *; try lia.
  - eauto.
  - destruct (IH i) as [l' E]; [lia|]. rewrite E; cbn; eauto.
Qed.

Lemma upd_fail {A} (l : list A) i v : length l <= i -> upd l i v = Fail EOutOfBounds.
Proof.
  revert i; induction l as [|a l IH]; intros [|i] H; cbn in *; try reflexivity; try lia.
  rewrite IH by lia; reflexivity.
Qed.

Lemma upd_same {A} (l : list A) i v l' : upd l i v = Ok l' -> nth_error l' i = Some v.
Proof.
  revert i l'; induction l as [|a l IH]; intros [|i] l' H; cbn in H; try discriminate.
  - injection H as <-; reflexivity.
  - destruct (upd l i v) as [l2|e] eqn:E; cbn in H; [|discriminate].
    injection H as <-; cbn; eauto.
Qed.

Lemma upd_other {A} (l : list A) i j v l' :
  upd l i v = Ok l' -> i <> j -> nth_error l' j = nth_error l j.
Proof.
  revert i j l'; induction l as [|a l IH]; intros [|i] j l' H N; cbn in H; try discriminate.
  - injection H as <-; destruct j; [lia|reflexivity].
  - destruct (upd l i v) as [l2|e] eqn:E; cbn in H; [|discriminate].
    injection H as <-; destruct j; cbn; [reflexivity|]. eapply IH; eauto.
Qed.

Lemma nth_error_ext {A} (l l' : list A) :
  (forall i, nth_error l i = nth_error l' i) -> l = l'.
Proof.
  revert l'; induction l as [|a l IH]; intros [|a' l'] H.
  - reflexivity.
  - specialize (H 0); discriminate.
  - specialize (H 0); discriminate.
  - f_equal.
    + specialize (H 0); cbn in H; congruence.
    + apply IH; intros i; apply (H (S i)).
Qed.

Lemma nth_error_ext_len {A} (l l' : list A) :
  length l = length l' ->
  (forall i, i < length l -> nth_error l i = nth_error l' i) -> l = l'.
Proof.
  intros HL H. apply nth_error_ext; intros i.
  destruct (lt_dec i (length l)) as [Hi|Hi]; [auto|].
  rewrite (proj2 (nth_error_None l i)) by lia.
  rewrite (proj2 (nth_error_None l' i)) by lia. reflexivity.
Qed.

Lemma nth_error_repeat_lt {A} (a : A) n i : i < n -> nth_error (repeat a n) i = Some a.
Proof.
  revert i; induction n as [|n IH]; intros [|i] H; cbn; try lia; auto. apply IH; lia.
Qed.

Lemma nth_error_map_iff {A B} (f : A -> B) l i :
  nth_error (map f l) i = option_map f (nth_error l i).
Proof. revert i; induction l as [|a l IH]; intros [|i]; cbn; auto. Qed.

Lemma nth_error_seq_lt s n i : i < n -> nth_error (seq s n) i = Some (s + i).
Proof.
  revert s i; induction n as [|n IH]; intros s [|i] H; cbn; try lia.
  - f_equal; lia.
  - rewrite IH by lia. f_equal; lia.
Qed.

Lemma nth_error_app_l {A} (l l' : list A) i : i < length l -> nth_error (l ++ l') i = nth_error l i.
Proof. intros; apply nth_error_app1; auto. Qed.

Lemma nth_error_app_r {A} (l l' : list A) i : nth_error (l ++ l') (length l + i) = nth_error l' i.
Proof. rewrite nth_error_app2 by lia. f_equal; lia. Qed.

Lemma nth_error_firstn {A} (l : list A) n i :
  nth_error (firstn n l) i = if i <? n then nth_error l i else None.
Proof.
  revert n i; induction l as [|a l IH]; intros [|n] [|i]; cbn [firstn nth_error]; try reflexivity.
  - destruct (S i <? S n); reflexivity.
  - rewrite IH. reflexivity.
Qed.

Lemma nth_error_skipn {A} (l : list A) n i : nth_error (skipn n l) i = nth_error l (n + i).
Proof.
  revert n; induction l as [|a l IH]; intros [|n]; cbn; try reflexivity.
  - destruct i; reflexivity.
  - apply IH.
Qed.

Lemma rmap_ok {A B} (f : A -> result B) (g : A -> B) l :
  (forall a, In a l -> f a = Ok (g a)) -> rmap f l = Ok (map g l).
Proof.
  induction l as [|a l IH]; intros H; cbn; [reflexivity|].
  rewrite H by (left; reflexivity); cbn.
  rewrite IH by (intros; apply H; right; auto). reflexivity.
Qed.

Lemma rmap_length {A B} (f : A -> result B) l l' : rmap f l = Ok l' -> length l' = length l.
Proof.
  revert l'; induction l as [|a l IH]; intros l' H; cbn in H.
  - injection H as <-; reflexivity.
  - destruct (f a); cbn in H; [|discriminate].
    destruct (rmap f l) eqn:E; cbn in H; [|discriminate].
    injection H as <-; cbn; f_equal; auto.
Qed.

Lemma max_nat_ge l x : In x l -> x <= max_nat l.
Proof.
  unfold max_nat; induction l as [|a l IH]; cbn; intros H; [easy|].
  destruct H as [->|H]; [lia|]. apply IH in H; lia.
Qed.

Lemma max_nat_in l : l <> [] -> In (max_nat l) l.
Proof.
  induction l as [|a l IH]; [easy|]; intros _; cbn [max_nat fold_right].
  destruct l as [|b l]; [left; cbn; lia|].
  destruct (Nat.max_spec a (fold_right Nat.max 0 (b :: l))) as [[_ E]|[_ E]]; rewrite E.
  - right; apply IH; discriminate.
  - left; reflexivity.
Qed.

Lemma sum_nat_app l l' : sum_nat (l ++ l') = sum_nat l + sum_nat l'.
Proof. induction l as [|a l IH]; cbn in *; [reflexivity|]. unfold sum_nat in *; cbn; lia. Qed.

Lemma length_concat_sum {A} (l : list (list A)) : length (concat l) = sum_nat (map (@length A) l).
Proof. induction l as [|a l IH]; cbn; [reflexivity|]. rewrite app_length, IH; reflexivity. Qed.

Lemma Forall2_nth {A B} (P : A -> B -> Prop) l l' :
  length l = length l' ->
  (forall i a b, nth_error l i = Some a -> nth_error l' i = Some b -> P a b) ->
  Forall2 P l l'.
Proof.
  revert l'; induction l as [|a l IH]; intros [|b l'] HL H; cbn in HL; try lia; constructor.
  - apply (H 0); reflexivity.
  - apply IH; [lia|]. intros i; apply (H (S i)).
Qed.

Lemma Forall2_length {A B} (P : A -> B -> Prop) l l' : Forall2 P l l' -> length l = length l'.
Proof. induction 1; cbn; congruence. Qed.

(* ---- loops ---- *)
Lemma rfold_seq_inv {S} (f : S -> nat -> result S) (I : nat -> S -> Prop) n : forall a s,
  I a s ->
  (forall k s, a <= k < a + n -> I k s -> exists s', f s k = Ok s' /\ I (Datatypes.S k) s') ->
  exists s', rfold f (seq a n) s = Ok s' /\ I (a + n) s'.
Proof.
  induction n as [|n IH]; intros a s H0 HS; cbn [seq rfold].
  - exists s. rewrite Nat.add_0_r. auto.
  - destruct (HS a s ltac:(lia) H0) as [s1 [E1 I1]]. rewrite E1. cbn [rbind].
    destruct (IH (Datatypes.S a) s1 I1) as [s' [E' I']].
    { intros k s2 Hk. apply HS. lia. }
    exists s'. split; [assumption|]. replace (a + Datatypes.S n) with (Datatypes.S a + n) by lia. assumption.
Qed.
Lemma rfold_inv {S A} (f : S -> A -> result S) (I : S -> Prop) l : forall s,
  I s -> (forall s a, In a l -> I s -> exists s', f s a = Ok s' /\ I s') ->
  exists s', rfold f l s = Ok s' /\ I s'.
Proof.
  induction l as [|a l IH]; intros s H0 HS; cbn [rfold]; [eauto|].
  destruct (HS s a ltac:(left; reflexivity) H0) as [s1 [E1 I1]]. rewrite E1. cbn [rbind].
  apply IH; auto. intros; apply HS; auto; right; assumption.
Qed.
Lemma rfold_app {S A} (f : S -> A -> result S) l m : forall s,
  rfold f (l ++ m) s = (s' <- rfold f l s ;; rfold f m s').
Proof. induction l as [|a l IH]; intros s; cbn; [reflexivity|]. destruct (f s a); cbn; auto. Qed.
Lemma rfold_ok_fold {A B} (f : B -> A -> result B) (g : B -> A -> B) l : forall b,
  (forall b a, In a l -> f b a = Ok (g b a)) -> rfold f l b = Ok (fold_left g l b).
Proof.
  induction l as [|a l IH]; intros b H; cbn; [reflexivity|].
  rewrite H by (left; reflexivity). cbn. apply IH. intros; apply H; right; assumption.
Qed.
Lemma fold_left_inv {S A} (f : S -> A -> S) (I : S -> Prop) l : forall s,
  I s -> (forall s a, In a l -> I s -> I (f s a)) -> I (fold_left f l s).
Proof.
  induction l as [|a l IH]; intros s H0 HS; cbn; [assumption|].
  apply IH; [apply HS; [left; reflexivity|assumption]|]. intros; apply HS; [right; assumption|assumption].
Qed.
Lemma fold_left_map {A B C} (f : A -> B) (g : C -> B -> C) l : forall c,
  fold_left g (map f l) c = fold_left (fun c a => g c (f a)) l c.
Proof. induction l as [|a l IH]; intros c; cbn; auto. Qed.

(* ---- lists ---- *)
Lemma rget_nth {A} (l : list A) i d : i < length l -> rget l i = Ok (nth i l d).
Proof. intros H. unfold rget. rewrite (nth_error_nth' l d H). reflexivity. Qed.
Lemma rget_some {A} (l : list A) i a : rget l i = Ok a <-> nth_error l i = Some a.
Proof. unfold rget. destruct (nth_error l i); split; intros H; congruence. Qed.
Lemma nth_map_lt {A B} (f : A -> B) l k da db : k < length l -> nth k (map f l) db = f (nth k l da).
Proof. intros. rewrite (nth_indep _ db (f da)) by (rewrite map_length; assumption). apply map_nth. Qed.
Lemma nth_firstn_lt {A} (d : A) l m k : k < m -> nth k (firstn m l) d = nth k l d.
Proof. revert m k; induction l as [|a l IH]; intros [|m] [|k] H; cbn; try lia; auto. apply IH; lia. Qed.
Lemma NoDup_app_l {A} (l m : list A) : NoDup (l ++ m) -> NoDup l.
Proof.
  induction l as [|a l IH]; intros H; [constructor|]. cbn in H. inversion H; subst.
  constructor; [|auto]. intros X; apply H2, in_or_app; auto.
Qed.
Lemma upd_nth {A} (l : list A) i v l' d j : upd l i v = Ok l' -> nth j l' d = if j =? i then v else nth j l d.
Proof.
  intros H. destruct (Nat.eqb_spec j i) as [->|N].
  - apply nth_error_nth. eapply upd_same; eauto.
  - assert (E := upd_other _ _ j _ _ H (not_eq_sym N)).
    destruct (nth_error l j) eqn:El.
    + rewrite (nth_error_nth _ _ d E), (nth_error_nth _ _ d El). reflexivity.
    + apply nth_error_None in E, El. rewrite !nth_overflow by assumption. reflexivity.
Qed.
Lemma upd_ok_lt {A} (l : list A) i v l' : upd l i v = Ok l' -> i < length l.
Proof.
  intros H. destruct (Nat.lt_ge_cases i (length l)); [assumption|]. rewrite upd_fail in H by assumption. discriminate.
Qed.
Lemma upd_combine {A B} (l : list A) (m : list B) i a b l' m' :
  length l = length m -> upd l i a = Ok l' -> upd m i b = Ok m' ->
  upd (combine l m) i (a, b) = Ok (combine l' m').
Proof.
  revert m i l' m'; induction l as [|x l IH]; intros [|y m] [|i] l' m' L H1 H2; cbn in *; try discriminate.
  - injection H1 as <-. injection H2 as <-. reflexivity.
  - destruct (upd l i a) eqn:E1; cbn in H1; [|discriminate]. injection H1 as <-.
    destruct (upd m i b) eqn:E2; cbn in H2; [|discriminate]. injection H2 as <-.
    rewrite (IH m i a0 a1); auto.
Qed.
Lemma upd_firstn {A} (l : list A) i v l' n : upd l i v = Ok l' -> i < n -> upd (firstn n l) i v = Ok (firstn n l').
Proof.
  revert i l' n; induction l as [|x l IH]; intros [|i] l' [|n] H L; cbn in *; try discriminate; try lia.
  - injection H as <-. reflexivity.
  - destruct (upd l i v) eqn:E; cbn in H; [|discriminate]. injection H as <-. cbn.
    rewrite (IH i a n E) by lia. reflexivity.
Qed.
Lemma upd_split {A} (l : list A) i v l' d : upd l i v = Ok l' ->
  exists l1 l2, l = l1 ++ nth i l d :: l2 /\ l' = l1 ++ v :: l2 /\ length l1 = i.
Proof.
  revert i l'; induction l as [|x l IH]; intros [|i] l' H; cbn in *; try discriminate.
  - injection H as <-. exists [], l. auto.
  - destruct (upd l i v) eqn:E; cbn in H; [|discriminate]. injection H as <-.
    destruct (IH i a E) as [l1 [l2 [E1 [E2 E3]]]]. exists (x :: l1), l2. cbn. rewrite <- E1, <- E2, E3. auto.
Qed.
