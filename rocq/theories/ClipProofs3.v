(* The layout of the clipped faces. *)
From Verif Require Import Base RBase Geom LinAlg Symeig Clip ClipSpec ClipProofs ClipProofs2.
From Coq Require Import Psatz.

(* ---- lists ---- *)
Lemma combine_maps {A B C} (f : A -> B) (g : A -> C) l : combine (map f l) (map g l) = map (fun x => (f x, g x)) l.
Proof. induction l as [|a l IH]; [reflexivity|]. cbn [map combine]. rewrite IH. reflexivity. Qed.
Lemma take_ok {A} (d : A) l idx : (forall i, In i idx -> (i < length l)%nat) -> take l idx = Ok (map (fun i => nth i l d) idx).
Proof.
  unfold take. induction idx as [|i idx IH]; intros H; [reflexivity|]. cbn [rmap map].
  rewrite (nth_error_nth' l d) by (apply H; left; reflexivity). cbn [rbind]. rewrite IH by (intros; apply H; right; assumption). reflexivity.
Qed.
Lemma take_fail {A} (l : list A) idx : (exists i, In i idx /\ (length l <= i)%nat) -> take l idx = Fail EIndex.
Proof.
  unfold take. induction idx as [|i idx IH]; intros (k & I & L); [destruct I|]. cbn [rmap]. destruct (nth_error l i) as [a|] eqn:E; [|reflexivity].
  cbn [rbind]. destruct I as [->|I]; [apply nth_error_None in L; rewrite L in E; discriminate E|]. rewrite IH by (exists k; split; assumption). reflexivity.
Qed.
Lemma nonzero_in {A} (g : A -> bool) (d : A) l i : In i (nonzero (map g l)) <-> (i < length l)%nat /\ g (nth i l d) = true.
Proof.
  unfold nonzero. rewrite filter_In, in_seq, map_length. split.
  - intros [[_ L] E]. cbn in L. split; [exact L|]. rewrite (nth_indep _ false (g d)) in E by (rewrite map_length; exact L). rewrite map_nth in E. exact E.
  - intros [L E]. split; [cbn; lia|]. rewrite (nth_indep _ false (g d)) by (rewrite map_length; exact L). rewrite map_nth. exact E.
Qed.
Lemma nonzero_nodup l : NoDup (nonzero l).
Proof. unfold nonzero. apply NoDup_filter, seq_NoDup. Qed.
Lemma rmap_total {A B} (f : A -> result B) (g : A -> B) l : (forall a, In a l -> f a = Ok (g a)) -> rmap f l = Ok (map g l).
Proof.
  induction l as [|a l IH]; intros H; [reflexivity|]. cbn [rmap map]. rewrite (H a (or_introl eq_refl)). cbn [rbind].
  rewrite IH by (intros; apply H; right; assumption). reflexivity.
Qed.

(* ---- scattered writes ---- *)
Lemma put_cons {A} k (v : A) ps l : put ((k, v) :: ps) l = (l1 <- upd l k v ;; put ps l1).
Proof. reflexivity. Qed.
Lemma put_app {A} (ps qs : list (nat * A)) l : put (ps ++ qs) l = (l1 <- put ps l ;; put qs l1).
Proof.
  revert l. induction ps as [|[k v] ps IH]; intros l; [reflexivity|]. rewrite <- app_comm_cons, !put_cons. destruct (upd l k v) as [l1|e]; [|reflexivity].
  cbn [rbind]. apply IH.
Qed.
Lemma put_all {A} (ps : list (nat * A)) (E l : list A) : length l = length E ->
  (forall k v, In (k, v) ps -> nth_error E k = Some v) ->
  (forall k, (k < length E)%nat -> (exists v, In (k, v) ps) \/ nth_error l k = nth_error E k) ->
  put ps l = Ok E.
Proof.
  revert l. induction ps as [|[k v] ps IH]; intros l L W C.
  - cbn. f_equal. apply nth_error_ext. intros k. destruct (Nat.lt_ge_cases k (length E)) as [H|H].
    + destruct (C k H) as [[v []]|X]; exact X.
    + rewrite (proj2 (nth_error_None l k)), (proj2 (nth_error_None E k)) by lia. reflexivity.
  - rewrite put_cons. assert (X : nth_error E k = Some v) by (apply W; left; reflexivity).
    assert (K : (k < length E)%nat) by (apply nth_error_Some; rewrite X; discriminate).
    destruct (upd_ok l k v) as [l1 E1]; [lia|]. rewrite E1. cbn [rbind]. pose proof (upd_length _ _ _ _ E1) as L1. apply IH; [lia| |].
    + intros; apply W; right; assumption.
    + intros j J. destruct (Nat.eq_dec j k) as [->|N].
      * right. rewrite X. eapply upd_same. exact E1.
      * rewrite (upd_other _ _ _ _ _ E1) by congruence. destruct (C j J) as [[u [I|I]]|Y]; [injection I as -> _; congruence|left; exists u; exact I|right; exact Y].
Qed.
(* distinct indices: what is read afterwards *)
Lemma put_spec {A} (ps : list (nat * A)) l : NoDup (map fst ps) -> (forall k v, In (k, v) ps -> (k < length l)%nat) ->
  exists l', put ps l = Ok l' /\ length l' = length l /\ (forall k v, In (k, v) ps -> nth_error l' k = Some v) /\
    (forall k, ~ In k (map fst ps) -> nth_error l' k = nth_error l k).
Proof.
  revert l. induction ps as [|[k v] ps IH]; intros l N B.
  - exists l. repeat split; [intros k v []].
  - inversion N as [|? ? N1 N2]; subst. cbn [map fst] in N1. rewrite put_cons.
    destruct (upd_ok l k v) as [l1 E1]; [apply (B k v); left; reflexivity|]. rewrite E1. cbn [rbind]. pose proof (upd_length _ _ _ _ E1) as L1.
    destruct (IH l1 N2) as (l' & P & L' & W & R). { intros j u I. rewrite L1. apply (B j u). right. exact I. }
    exists l'. split; [exact P|]. split; [lia|]. split.
    + intros j u [I|I]; [|apply W; exact I]. injection I as <- <-. rewrite R by exact N1. eapply upd_same. exact E1.
    + intros j J. cbn [map fst] in J. rewrite R by (intros H; apply J; right; exact H). apply (upd_other _ _ _ _ _ E1). intros H. apply J. left. exact H.
Qed.

(* ---- sums ---- *)
Fixpoint zsum (l : list Z) : Z := match l with [] => 0%Z | a :: l' => (a + zsum l')%Z end.
Lemma excl_last l : forall a, l <> [] -> exists x y, rget (excl a l) (length l - 1) = Ok x /\ rget l (length l - 1) = Ok y /\ (x + y = a + zsum l)%Z.
Proof.
  induction l as [|b l IH]; intros a N; [congruence|]. destruct l as [|b' l].
  - exists a, b. repeat split. cbn. lia.
  - destruct (IH (a + b)%Z ltac:(discriminate)) as (x & y & E1 & E2 & E3). exists x, y.
    replace (length (b :: b' :: l) - 1)%nat with (S (length (b' :: l) - 1)) by (cbn [length]; lia).
    split; [exact E1|]. split; [exact E2|]. rewrite E3. cbn [zsum]. lia.
Qed.
Lemma excl_nat {A} (h : A -> nat) l : forall a, nn (excl (Z.of_nat a) (map (fun x => Z.of_nat (h x)) l)) = map (fun i => a + sum_nat (map h (firstn i l)))%nat (seq 0 (length l)).
Proof.
  induction l as [|b l IH]; intros a; [reflexivity|]. cbn [map excl length seq nn]. f_equal; [rewrite Nat2Z.id; cbn; lia|].
  change (map Z.to_nat (excl (Z.of_nat a + Z.of_nat (h b)) (map (fun x => Z.of_nat (h x)) l))) with (nn (excl (Z.of_nat a + Z.of_nat (h b)) (map (fun x => Z.of_nat (h x)) l))).
  rewrite <- Nat2Z.inj_add, IH, <- seq_shift, map_map. apply map_ext. intros i. cbn [firstn map]. change (sum_nat (h b :: map h (firstn i l))) with (h b + sum_nat (map h (firstn i l)))%nat. lia.
Qed.
Lemma sum_app l1 l2 : sum_nat (l1 ++ l2) = (sum_nat l1 + sum_nat l2)%nat.
Proof. induction l1 as [|a l IH]; [reflexivity|]. change (sum_nat ((a :: l) ++ l2)) with (a + sum_nat (l ++ l2))%nat. rewrite IH. change (sum_nat (a :: l)) with (a + sum_nat l)%nat. lia. Qed.

(* ---- concatenated blocks ---- *)
Section Blocks.
  Context {B : Type} (g : nat -> list B).
  Definition offs (i : nat) : nat := sum_nat (map (fun i => length (g i)) (seq 0 i)).
  Definition blocks (n : nat) : list (nat * B) := flat_map (fun i => map (pair i) (g i)) (seq 0 n).
  Lemma offs_S i : offs (S i) = (offs i + length (g i))%nat.
  Proof. unfold offs. rewrite seq_S, map_app, sum_app. cbn. lia. Qed.
  Lemma blocks_S n : blocks (S n) = blocks n ++ map (pair n) (g n).
  Proof. unfold blocks. rewrite seq_S, flat_map_app. cbn [flat_map Nat.add]. rewrite app_nil_r. reflexivity. Qed.
  Lemma blocks_length n : length (blocks n) = offs n.
  Proof. induction n as [|n IH]; [reflexivity|]. rewrite blocks_S, app_length, map_length, IH, offs_S. reflexivity. Qed.
  Lemma offs_mono i j : (i <= j)%nat -> (offs i <= offs j)%nat.
  Proof. induction 1 as [|m L IH]; [lia|]. rewrite offs_S. lia. Qed.
  Lemma blocks_nth n i j x : (i < n)%nat -> nth_error (g i) j = Some x -> nth_error (blocks n) (offs i + j) = Some (i, x).
  Proof.
    intros L H. induction n as [|n IH]; [lia|]. rewrite blocks_S. destruct (Nat.eq_dec i n) as [->|N].
    - rewrite nth_error_app2 by (rewrite blocks_length; lia). rewrite blocks_length. replace (offs n + j - offs n)%nat with j by lia. apply map_nth_error. exact H.
    - rewrite nth_error_app1; [apply IH; lia|]. rewrite blocks_length. pose proof (offs_mono (S i) n ltac:(lia)) as M. rewrite offs_S in M.
      assert (j < length (g i))%nat by (apply nth_error_Some; rewrite H; discriminate). lia.
  Qed.
  Lemma blocks_find n k : (k < offs n)%nat -> exists i j x, (i < n)%nat /\ nth_error (g i) j = Some x /\ k = (offs i + j)%nat.
  Proof.
    induction n as [|n IH]; [cbn; lia|]. rewrite offs_S. intros H. destruct (Nat.lt_ge_cases k (offs n)) as [L|L].
    - destruct (IH L) as (i & j & x & A & C & D). exists i, j, x. split; [lia|]. split; assumption.
    - destruct (nth_error (g n) (k - offs n)) as [x|] eqn:X; [|apply nth_error_None in X; lia].
      exists n, (k - offs n)%nat, x. split; [lia|]. split; [exact X|lia].
  Qed.
  Lemma blocks_inj i j i' j' : (j < length (g i))%nat -> (j' < length (g i'))%nat -> (offs i + j = offs i' + j')%nat -> i = i' /\ j = j'.
  Proof.
    intros L L' E. destruct (Nat.lt_total i i') as [H|[->|H]].
    - pose proof (offs_mono (S i) i' H) as M. rewrite offs_S in M. lia.
    - split; [reflexivity|lia].
    - pose proof (offs_mono (S i') i H) as M. rewrite offs_S in M. lia.
  Qed.
  (* the block of a place *)
  Lemma blocks_at n k i x : nth_error (blocks n) k = Some (i, x) -> (i < n)%nat /\ exists j, nth_error (g i) j = Some x /\ k = (offs i + j)%nat.
  Proof.
    intros H. assert (L : (k < offs n)%nat) by (rewrite <- blocks_length; apply nth_error_Some; rewrite H; discriminate).
    destruct (blocks_find n k L) as (i' & j & y & A & C & ->). rewrite (blocks_nth n i' j y A C) in H. injection H as <- <-.
    split; [exact A|]. exists j. split; [exact C|reflexivity].
  Qed.
End Blocks.
