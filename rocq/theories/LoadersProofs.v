From Coq Require Import Arith List Permutation Lia Bool.
From Verif Require Import Base Loaders LoadersSpec.
Import ListNotations.

Lemma rmap_get pool l : (forall p, In p l -> p < length pool) ->
  rmap (rget pool) l = Ok (map (fun p => nth p pool 0) l).
Proof.
  intros H. apply rmap_ok. intros p P. apply rget_nth, H, P.
Qed.
Lemma perm_bound ch k n p : fair ch -> In p (randperm ch k n) -> p < n.
Proof. intros [F _] P. apply (Permutation_in _ (F k n)) in P. apply in_seq in P. lia. Qed.
Lemma perm_nodup ch k n : fair ch -> NoDup (randperm ch k n).
Proof. intros [F _]. apply (Permutation_NoDup (Permutation_sym (F k n))), seq_NoDup. Qed.
Lemma perm_length ch k n : fair ch -> length (randperm ch k n) = n.
Proof. intros [F _]. rewrite (Permutation_length (F k n)). apply seq_length. Qed.
Lemma nodup_firstn {A} k (l : list A) : NoDup l -> NoDup (firstn k l).
Proof.
  intros N. rewrite <- (firstn_skipn k l) in N.
  induction (firstn k l) as [|a r IH]; [constructor|].
  cbn in N. inversion N as [|? ? X Y]. constructor; [intros Z; apply X, in_or_app; left; exact Z|apply IH, Y].
Qed.
Lemma in_firstn {A} k (l : list A) x : In x (firstn k l) -> In x l.
Proof. intros H. rewrite <- (firstn_skipn k l). apply in_or_app. left. exact H. Qed.

Section pool.
Variables (ch : chance) (p : pool).
Hypotheses (Hf : fair ch) (Hn : first_indices p <> []) (Hs : 1 <= batch_size p <= length (rest_indices p) + 1)
  (Hm : num_batches p <> Some 0).
Let n := length (first_indices p).
Lemma n_pos : 0 < n.
Proof. unfold n. destruct (first_indices p); [contradiction|cbn; lia]. Qed.

Lemma copies_length c : length (concat (map (fun k => randperm ch k n) (seq 0 c))) = c * n.
Proof.
  generalize 0 as s. induction c as [|c IH]; intros s; [reflexivity|]. cbn [seq map concat].
  rewrite app_length, IH, perm_length by exact Hf. cbn. lia.
Qed.
Lemma copies_enough m : 0 < m -> m <= (1 + (m - 1) / n) * n.
Proof.
  intros M. pose proof n_pos. pose proof (Nat.div_mod (m - 1) n ltac:(lia)).
  pose proof (Nat.mod_upper_bound (m - 1) n ltac:(lia)). nia.
Qed.
Lemma first_ok : exists l c, first_positions ch p = Ok (l, c) /\ length l = pool_len p /\ (forall i, In i l -> i < n).
Proof.
  pose proof n_pos as P. unfold first_positions. fold n. unfold pool_len.
  destruct (replacement p).
  - destruct (Nat.eqb_spec n 0); [lia|]. eexists. eexists. split; [reflexivity|]. split; [rewrite map_length, seq_length; reflexivity|].
    intros i I. apply in_map_iff in I. destruct I as (j & <- & _). destruct Hf as [_ F]. apply F, P.
  - destruct (num_batches p) as [m|] eqn:M.
    + destruct (Nat.eqb_spec n 0); [lia|]. eexists. eexists. split; [reflexivity|].
      assert (0 < m) by (destruct m; [contradiction|lia]).
      split.
      * rewrite firstn_length, copies_length. pose proof (copies_enough m H). lia.
      * intros i I. apply in_firstn in I. apply in_concat in I. destruct I as (l & L & I).
        apply in_map_iff in L. destruct L as (k & <- & _). exact (perm_bound ch k n i Hf I).
    + eexists. eexists. split; [reflexivity|]. split; [apply perm_length, Hf|].
      intros i I. exact (perm_bound ch 0 n i Hf I).
Qed.
Lemma iter_is : exists l c, first_positions ch p = Ok (l, c) /\
  let firsts := map (fun i => nth i (first_indices p) 0) l in
  pool_iter ch p = Ok (map (fun ki => snd ki :: (if batch_size p =? 1 then [] else
     map (fun q => nth q (rest_indices p) 0) (firstn (batch_size p - 1) (randperm ch (c + fst ki) (length (rest_indices p))))))
     (combine (seq 0 (length firsts)) firsts)).
Proof.
  destruct first_ok as (l & c & E & L & B). exists l, c. split; [exact E|]. cbv zeta.
  unfold pool_iter. rewrite E. cbn [rbind fst snd]. rewrite (rmap_get _ l) by exact B. cbn [rbind].
  set (firsts := map _ l).
  destruct (Nat.eqb_spec (batch_size p) 1) as [S|S].
  - f_equal. generalize 0 as s. induction firsts as [|f r IH]; intros s; [reflexivity|]. cbn [map length seq combine]. f_equal. apply IH.
  - apply rmap_ok. intros [k i] K. cbn [fst snd].
    replace (up_to (batch_size p) (randperm ch (c + k) (length (rest_indices p))))
      with (firstn (batch_size p - 1) (randperm ch (c + k) (length (rest_indices p))))
      by (destruct (batch_size p) as [|b]; [lia|]; cbn [up_to]; f_equal; lia).
    rewrite rmap_get; [reflexivity|]. intros q Q. apply in_firstn in Q. exact (perm_bound _ _ _ _ Hf Q).
Qed.
Lemma iter_batches : exists bs, pool_iter ch p = Ok bs /\ length bs = pool_len p /\
  forall b, In b bs -> exists x r, b = x :: r /\ In x (first_indices p) /\ length r = batch_size p - 1 /\
    drawn (rest_indices p) r.
Proof.
  destruct iter_is as (l & c & E & I). cbv zeta in I. destruct first_ok as (l' & c' & E' & L & B).
  rewrite E in E'. injection E' as <- <-.
  eexists. split; [exact I|]. split; [rewrite map_length, combine_length, seq_length, map_length, Nat.min_id; exact L|].
  intros b Hb. apply in_map_iff in Hb. destruct Hb as ([k x] & <- & K). cbn [fst snd].
  exists x. eexists. split; [reflexivity|]. apply in_combine_r in K. apply in_map_iff in K. destruct K as (i & <- & Hi).
  split; [apply nth_In, B, Hi|].
  destruct (Nat.eqb_spec (batch_size p) 1) as [S|S].
  - split; [cbn; lia|]. exists []. split; [constructor|]. split; [intros q []|reflexivity].
  - split; [rewrite map_length, firstn_length, perm_length by exact Hf; lia|].
    exists (firstn (batch_size p - 1) (randperm ch (c + k) (length (rest_indices p)))).
    split; [apply nodup_firstn, perm_nodup, Hf|]. split; [|reflexivity].
    intros q Q. apply in_firstn in Q. exact (perm_bound _ _ _ _ Hf Q).
Qed.
Lemma iter_heads bs : pool_iter ch p = Ok bs ->
  exists l c, first_positions ch p = Ok (l, c) /\ map (hd 0) bs = map (fun i => nth i (first_indices p) 0) l.
Proof.
  intros E. destruct iter_is as (l & c & F & I). cbv zeta in I. rewrite E in I. injection I as ->.
  exists l, c. split; [exact F|]. rewrite map_map. cbn [hd].
  set (firsts := map _ l). generalize 0 as s. induction firsts as [|f r IH]; intros s; [reflexivity|].
  cbn [length seq combine map snd]. f_equal. apply IH.
Qed.
Lemma nth_seq_id (l : list nat) : map (fun i => nth i l 0) (seq 0 (length l)) = l.
Proof.
  apply (nth_ext _ _ 0 0); [rewrite map_length, seq_length; reflexivity|].
  intros i I. rewrite map_length, seq_length in I.
  rewrite (nth_indep _ 0 (nth 0 l 0)) by (rewrite map_length, seq_length; exact I).
  rewrite (map_nth (fun i => nth i l 0) (seq 0 (length l)) 0 i), seq_nth by exact I. reflexivity.
Qed.
Lemma epoch_heads bs : replacement p = false -> num_batches p = None -> pool_iter ch p = Ok bs ->
  Permutation (map (hd 0) bs) (first_indices p).
Proof.
  intros R N E. destruct (iter_heads bs E) as (l & c & F & ->). unfold first_positions in F. rewrite R, N in F.
  injection F as <- <-.
  rewrite <- (nth_seq_id (first_indices p)) at 2. apply Permutation_map, Hf.
Qed.
(* counting in copies of permutations *)
Definition times (x : nat) (l : list nat) : nat := count_occ Nat.eq_dec l x.
Lemma times_app x a b : times x (a ++ b) = times x a + times x b.
Proof. apply count_occ_app. Qed.
Lemma times_perm k x : x < n -> times x (randperm ch k n) = 1.
Proof.
  intros X. unfold times. rewrite (proj1 (Permutation_count_occ Nat.eq_dec _ _) (proj1 Hf k n) x).
  apply NoDup_count_occ'; [apply seq_NoDup|apply in_seq; lia].
Qed.
Lemma times_prefix : forall c s m x, x < n -> m <= c * n ->
  let t := times x (firstn m (concat (map (fun k => randperm ch k n) (seq s c)))) in m / n <= t <= m / n + 1.
Proof.
  pose proof n_pos as P. induction c as [|c IH]; intros s m x X M; cbv zeta.
  - cbn in M. replace m with 0 by lia. rewrite Nat.div_0_l by lia. cbn. lia.
  - cbn [seq map concat]. destruct (Nat.lt_ge_cases m n) as [L|L].
    + rewrite Nat.div_small by exact L. split; [lia|].
      rewrite firstn_app, perm_length by exact Hf. replace (m - n) with 0 by lia. cbn [firstn]. rewrite app_nil_r.
      pose proof (times_perm s x X) as T. rewrite <- (firstn_skipn m (randperm ch s n)), times_app in T. lia.
    + rewrite firstn_app, perm_length by exact Hf. rewrite firstn_all2 by (rewrite perm_length by exact Hf; lia).
      rewrite times_app, times_perm by exact X.
      specialize (IH (S s) (m - n) x X ltac:(cbn in M; lia)). cbv zeta in IH.
      replace (m / n) with (S ((m - n) / n)); [lia|].
      replace m with (m - n + 1 * n) at 2 by lia. rewrite Nat.div_add by lia. lia.
Qed.
Lemma times_map (l : list nat) (f : nat -> nat) i : (forall j, In j l -> f j = f i -> j = i) ->
  times (f i) (map f l) = times i l.
Proof.
  unfold times. induction l as [|a l IH]; intros H; [reflexivity|]. cbn [map count_occ].
  rewrite IH by (intros j J; apply H; right; exact J).
  destruct (Nat.eq_dec (f a) (f i)) as [E|E], (Nat.eq_dec a i) as [E'|E']; try reflexivity.
  - exfalso. apply E', H; [left; reflexivity|exact E].
  - exfalso. apply E. congruence.
Qed.
Lemma balanced_heads m bs x : replacement p = false -> num_batches p = Some m -> NoDup (first_indices p) ->
  pool_iter ch p = Ok bs -> In x (first_indices p) -> m / n <= times x (map (hd 0) bs) <= m / n + 1.
Proof.
  intros R N D E X. destruct (iter_heads bs E) as (l & c & F & ->).
  destruct first_ok as (l' & c' & F' & _ & B). rewrite F in F'. injection F' as <- <-.
  unfold first_positions in F. fold n in F. rewrite R, N in F.
  destruct (Nat.eqb_spec n 0); [discriminate|]. injection F as F _.
  apply (In_nth _ _ 0) in X. destruct X as (i & I & <-).
  rewrite (times_map l (fun i => nth i (first_indices p) 0) i).
  - rewrite <- F. apply (times_prefix (1 + (m - 1) / n) 0 m i); [exact I|]. apply copies_enough.
    destruct m; [rewrite N in Hm; contradiction|lia].
  - intros j J Q. apply B in J. exact (proj1 (NoDup_nth (first_indices p) 0) D j i J I Q).
Qed.
End pool.
