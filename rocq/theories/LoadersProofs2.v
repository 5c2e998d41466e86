From Coq Require Import Arith List Permutation Lia Bool.
From Verif Require Import Base Loaders LoadersSpec LoadersProofs.
Import ListNotations.

(* ---- chunks ---- *)
Lemma firstn_plus {A} (a b : nat) (l : list A) : firstn (a + b) l = firstn a l ++ firstn b (skipn a l).
Proof. revert l. induction a as [|a IH]; intros [|x l]; cbn; [reflexivity|reflexivity|destruct b; reflexivity|rewrite IH; reflexivity]. Qed.
Lemma chunks_all size : 0 < size -> forall fuel l, length l <= fuel ->
  length (chunks fuel size l) = length l / size /\ (forall b, In b (chunks fuel size l) -> length b = size) /\
  concat (chunks fuel size l) = firstn (length l / size * size) l.
Proof.
  intros S0. induction fuel as [|fuel IH]; intros l L.
  - destruct l; [|cbn in L; lia]. cbn [chunks length concat]. rewrite Nat.div_0_l by lia. split; [reflexivity|]. split; [intros b []|reflexivity].
  - cbn [chunks]. destruct (Nat.ltb_spec (length l) size) as [E|E].
    + rewrite Nat.div_small by exact E. split; [reflexivity|]. split; [intros b []|reflexivity].
    + destruct (IH (skipn size l)) as (A & B & C); [rewrite skipn_length; lia|]. rewrite skipn_length in A, C.
      assert (Q : length l / size = S ((length l - size) / size)).
      { replace (length l) with (length l - size + 1 * size) at 1 by lia. rewrite Nat.div_add by lia. lia. }
      split; [cbn [length]; lia|]. split.
      * intros b [<-|H]; [rewrite firstn_length; lia|exact (B b H)].
      * cbn [concat]. rewrite C, Q. cbn [Nat.mul]. rewrite firstn_plus. reflexivity.
Qed.
Lemma simple_epoch ch size len : fair ch -> 0 < size -> 0 < len ->
  exists bs, simple_loader ch size len 0 = Ok bs /\ length bs = len / size /\
    (forall b, In b bs -> length b = size) /\ NoDup (concat bs) /\ (forall i, In i (concat bs) -> i < len).
Proof.
  intros F S0 L. unfold simple_loader. destruct (Nat.eqb_spec size 0); [lia|]. destruct (Nat.eqb_spec len 0); [lia|].
  cbn [Nat.ltb Nat.leb]. eexists. split; [reflexivity|]. unfold batches_of.
  destruct (chunks_all size S0 (length (randperm ch 0 len)) (randperm ch 0 len) (le_n _)) as (A & B & C).
  rewrite (perm_length ch 0 len F) in *. split; [exact A|]. split; [exact B|]. rewrite C.
  split; [apply nodup_firstn, perm_nodup, F|]. intros i I. apply in_firstn in I. exact (perm_bound _ _ _ _ F I).
Qed.
Lemma simple_fixed ch size len n : fair ch -> 0 < size -> 0 < len -> 0 < n ->
  exists bs, simple_loader ch size len n = Ok bs /\ length bs = n /\
    (forall b, In b bs -> length b = size) /\ (forall i, In i (concat bs) -> i < len).
Proof.
  intros F S0 L N. unfold simple_loader. destruct (Nat.eqb_spec size 0); [lia|]. destruct (Nat.eqb_spec len 0); [lia|].
  destruct (Nat.ltb_spec 0 n); [|lia]. eexists. split; [reflexivity|]. unfold batches_of.
  set (l := map _ _). assert (Q : length l = n * size) by (unfold l; rewrite map_length, seq_length; lia).
  destruct (chunks_all size S0 (length l) l (le_n _)) as (A & B & C).
  split; [rewrite A, Q; apply Nat.div_mul; lia|]. split; [exact B|]. rewrite C.
  intros i I. apply in_firstn in I. apply in_map_iff in I. destruct I as (j & <- & _). apply F, L.
Qed.

(* ---- loaders with a pool ---- *)
Lemma drawn_nodup pool l : NoDup pool -> drawn pool l -> NoDup l /\ (forall x, In x l -> In x pool).
Proof.
  intros N (ps & D & B & ->). split.
  - induction ps as [|a ps IH]; [constructor|]. inversion D as [|? ? X Y]. cbn [map]. constructor.
    + intros Z. apply in_map_iff in Z. destruct Z as (q & E & Q). apply X.
      replace a with q; [exact Q|]. apply (proj1 (NoDup_nth pool 0) N q a); [apply B; right; exact Q|apply B; left; reflexivity|exact E].
    + apply IH; [exact Y|]. intros q Q. apply B. right. exact Q.
  - intros x X. apply in_map_iff in X. destruct X as (q & <- & Q). apply nth_In, B, Q.
Qed.
Lemma new_pool_ok first rest size repl n : size <= length rest + 1 ->
  new_pool first rest size repl n = Ok (Pool first rest size repl (match n with Some O => None | _ => n end)).
Proof. intros H. unfold new_pool. destruct (Nat.leb_spec size (length rest + 1)); [reflexivity|lia]. Qed.
Lemma pool_run ch first rest size n : fair ch -> first <> [] -> 1 <= size <= length rest + 1 -> NoDup rest ->
  exists p bs, new_pool first rest size true (Some n) = Ok p /\ pool_iter ch p = Ok bs /\
    length bs = (if n =? 0 then length first else n) /\
    forall b, In b bs -> exists x r, b = x :: r /\ In x first /\ length r = size - 1 /\ NoDup r /\ (forall y, In y r -> In y rest).
Proof.
  intros F N S0 D. rewrite new_pool_ok by lia. eexists.
  destruct (iter_batches ch (Pool first rest size true (match n with O => None | S _ => Some n end)) F) as (bs & E & L & B);
    cbn [first_indices rest_indices batch_size num_batches]; try assumption; [destruct n; discriminate|].
  exists bs. split; [reflexivity|]. split; [exact E|]. split; [rewrite L; destruct n; reflexivity|].
  intros b Hb. destruct (B b Hb) as (x & r & -> & X & R & W). cbn in X, R, W. exists x, r.
  destruct (drawn_nodup rest r D W). repeat split; assumption.
Qed.
Lemma train_runs ch size d t n : fair ch -> 0 < size_of d -> 1 <= size <= size_of t + 1 ->
  exists bs, train_loader ch size d (Some t) n = Ok bs /\ length bs = (if n =? 0 then size_of d else n) /\
    forall b, In b bs -> exists i r, b = Own i :: map FromTrain r /\ i < size_of d /\ length r = size - 1 /\ NoDup r /\
      (forall j, In j r -> j < size_of t).
Proof.
  intros F D S0. unfold train_loader.
  destruct (pool_run ch (seq 0 (size_of d)) (seq (size_of d) (size_of t)) size n F) as (p & bs & E & I & L & B).
  { destruct (size_of d); [lia|discriminate]. } { rewrite seq_length. exact S0. } { apply seq_NoDup. }
  rewrite E. cbn [rbind]. rewrite I. cbn [rbind]. eexists. split; [reflexivity|]. split; [rewrite map_length, L, seq_length; reflexivity|].
  intros b Hb. apply in_map_iff in Hb. destruct Hb as (b' & <- & Hb). destruct (B b' Hb) as (x & r & -> & X & R & N & W).
  apply in_seq in X. exists x, (map (fun y => y - size_of d) r). cbn [map]. split; [|split; [lia|]].
  - f_equal; [unfold concat_item; destruct (Nat.ltb_spec x (size_of d)); [reflexivity|lia]|].
    rewrite map_map. apply map_ext_in. intros y Y. apply W, in_seq in Y. unfold concat_item.
    destruct (Nat.ltb_spec y (size_of d)); [lia|reflexivity].
  - rewrite map_length. split; [exact R|]. split.
    + clear - N W. induction r as [|a r IH]; [constructor|]. inversion N as [|? ? X Y]. cbn [map]. constructor.
      * intros Z. apply in_map_iff in Z. destruct Z as (q & E & Q). apply X. replace a with q; [exact Q|].
        pose proof (W q (or_intror Q)) as A. pose proof (W a (or_introl eq_refl)) as C. apply in_seq in A, C. lia.
      * apply IH; [exact Y|]. intros q Q. apply W. right. exact Q.
    + intros j J. apply in_map_iff in J. destruct J as (y & <- & Y). apply W, in_seq in Y. lia.
Qed.
Lemma frames_in d k i : In i (frames d k) <-> nth_error (known d) i = Some k.
Proof.
  unfold frames. rewrite filter_In, in_seq, eqb_true_iff. split.
  - intros [A <-]. apply nth_error_nth'. unfold size_of in A. lia.
  - intros H. split; [|apply nth_error_nth, H]. assert (i < length (known d)) by (apply nth_error_Some; congruence). unfold size_of. lia.
Qed.
Lemma known_runs ch size d n : fair ch -> frames d false <> [] -> 1 <= size <= length (frames d true) + 1 ->
  exists bs, known_loader ch size d n = Ok bs /\ length bs = (if n =? 0 then length (frames d false) else n) /\
    forall b, In b bs -> exists i r, b = map Own (i :: r) /\ nth_error (known d) i = Some false /\ length r = size - 1 /\ NoDup (i :: r) /\
      (forall j, In j r -> nth_error (known d) j = Some true).
Proof.
  intros F D S0. unfold known_loader.
  destruct (pool_run ch (frames d false) (frames d true) size n F D S0) as (p & bs & E & I & L & B).
  { apply NoDup_filter, seq_NoDup. }
  rewrite E. cbn [rbind]. rewrite I. cbn [rbind]. eexists. split; [reflexivity|]. split; [rewrite map_length, L; reflexivity|].
  intros b Hb. apply in_map_iff in Hb. destruct Hb as (b' & <- & Hb). destruct (B b' Hb) as (x & r & -> & X & R & N & W).
  apply frames_in in X. exists x, r. split; [reflexivity|]. split; [exact X|]. split; [exact R|]. split.
  - constructor; [|exact N]. intros Z. apply W, frames_in in Z. congruence.
  - intros j J. apply frames_in, W, J.
Qed.
Lemma pool_refused first rest size repl n : new_pool first rest size repl n = Fail EValue <-> length rest + 1 < size.
Proof. unfold new_pool. destruct (Nat.leb_spec size (length rest + 1)); split; intros H'; try lia; try discriminate; reflexivity. Qed.
Lemma empty_refused ch p : first_indices p = [] -> (replacement p = true \/ num_batches p <> None) ->
  pool_iter ch p = Fail ERuntime.
Proof.
  intros E H. unfold pool_iter, first_positions. rewrite E. cbn [length Nat.eqb].
  destruct (replacement p); [reflexivity|]. destruct H as [H|H]; [discriminate|].
  destruct (num_batches p); [reflexivity|contradiction].
Qed.
(* a witness: an arithmetical "chance" *)
Definition steady : chance := Chance (fun _ n => rev (seq 0 n)) (fun _ n i => i mod n).
Lemma steady_fair : fair steady.
Proof. split; cbn; intros; [apply Permutation_sym, Permutation_rev|apply Nat.mod_upper_bound; lia]. Qed.
Lemma frames_count d k : length (frames d k) = count_occ bool_dec (known d) k.
Proof.
  unfold frames, size_of. induction (known d) as [|b l IH] using rev_ind; [reflexivity|].
  rewrite app_length, Nat.add_1_r, seq_S, filter_app, app_length, count_occ_app. cbn [Nat.add filter].
  rewrite app_nth2 by lia. rewrite Nat.sub_diag. cbn [nth]. f_equal.
  - rewrite <- IH. f_equal. apply filter_ext_in. intros i I. apply in_seq in I. rewrite app_nth1 by lia. reflexivity.
  - destruct b, k; reflexivity.
Qed.
