From Coq Require Import ZArith Reals String Bool Permutation Lia Lra Sorted.
From Verif Require Import Base RBase Stats StatsProofs SceneSampler SceneSamplerSpec.
Local Open Scope list_scope.

(* ---- random choices ---- *)
Lemma nbind_ok {A B} (m : nd A) (f : A -> nd B) b : nbind m f (Ok b) <-> exists a, m (Ok a) /\ f a (Ok b).
Proof. unfold nbind. split; [intros [H|(e & _ & E)]; [exact H|discriminate]|left; assumption]. Qed.
Lemma nbind_fail {A B} (m : nd A) (f : A -> nd B) e : nbind m f (Fail e) -> m (Fail e) \/ exists a, m (Ok a) /\ f a (Fail e).
Proof. intros [H|(e' & H & E)]; [right; exact H|left; injection E as ->; exact H]. Qed.
Lemma nmap_ok {A B} (f : A -> nd B) l bs : nmap f l (Ok bs) <-> Forall2 (fun a b => f a (Ok b)) l bs.
Proof.
  revert bs. induction l as [|a l IH]; intros bs; cbn [nmap].
  - unfold nret. split; [intros E; injection E as ->; constructor|intros H; inversion H; reflexivity].
  - rewrite nbind_ok. split.
    + intros (b & Hb & H). rewrite nbind_ok in H. destruct H as (bs' & H' & E). injection E as ->. constructor; [exact Hb|]. apply IH. exact H'.
    + intros H. inversion H as [|a' b l' bs' Hb Hl]; subst. exists b. split; [exact Hb|]. rewrite nbind_ok. exists bs'. split; [apply IH; exact Hl|reflexivity].
Qed.
Lemma nmap_fail {A B} (f : A -> nd B) l e : nmap f l (Fail e) -> exists a, In a l /\ f a (Fail e).
Proof.
  induction l as [|a l IH]; cbn [nmap]; [discriminate|]. intros H. apply nbind_fail in H. destruct H as [H|(b & _ & H)]; [exists a; split; [left; reflexivity|exact H]|].
  apply nbind_fail in H. destruct H as [H|(bs & _ & H)]; [|discriminate]. destruct (IH H) as (a' & I & H'). exists a'. split; [right; exact I|exact H'].
Qed.
Lemma picks_incl {A} (x : list A) ps c : Forall2 (fun p a => nth_error x p = Some a) ps c -> incl c x /\ length c = length ps.
Proof.
  induction 1 as [|p a ps c H _ (I & L)]; [split; [intros y []|reflexivity]|]. split; [|cbn; lia]. intros y [<-|Hy]; [eapply nth_error_In; exact H|apply I; exact Hy].
Qed.
Lemma picks_nodup {A} (x : list A) ps c : NoDup x -> Forall2 (fun p a => nth_error x p = Some a) ps c -> NoDup ps -> NoDup c.
Proof.
  intros NX. induction 1 as [|p a ps c H F IH]; intros NP; [constructor|]. inversion NP as [|p' ps' N1 N2]; subst. constructor; [|apply IH; exact N2].
  intros I. apply N1. clear -NX F H I. induction F as [|q b ps c Hq F IH]; [destruct I|]. destruct I as [->|I]; [|right; apply IH; exact I]. left.
  apply (proj1 (NoDup_nth_error x) NX); [apply nth_error_Some; congruence|congruence].
Qed.
Lemma choice_ok {A} (x : list A) size replace c : np_choice x size replace (Ok c) -> Z.of_nat (length c) = size /\ incl c x /\ (replace = false -> NoDup x -> NoDup c).
Proof.
  unfold np_choice. destruct (size <? 0)%Z; [discriminate|]. destruct (_ && _)%bool; [discriminate|]. destruct (_ && _)%bool; [discriminate|].
  intros (ps & c' & E & N & F & EC). injection EC as <-. destruct (picks_incl x ps c F) as (I & L). repeat split; [lia|exact I|]. intros Hr NX. apply (picks_nodup x ps c NX F). apply N. exact Hr.
Qed.
Lemma capped_ok {A} (x : list A) size c : capped_random_choice x size false (Ok c) -> Z.of_nat (length c) = Z.min size (Z.of_nat (length x)) /\ incl c x /\ (NoDup x -> NoDup c).
Proof. intros H. apply choice_ok in H. destruct H as (A1 & A2 & A3). auto. Qed.
Lemma capped_many {A} (x : list A) size c : capped_random_choice x size true (Ok c) -> Z.of_nat (length c) = size /\ incl c x.
Proof. intros H. apply choice_ok in H. destruct H as (A1 & A2 & _). auto. Qed.
Lemma capped_fail {A} (x : list A) size e : (0 <= size)%Z -> ~ capped_random_choice x size false (Fail e).
Proof.
  intros Hs. unfold capped_random_choice, np_choice. destruct (Z.ltb_spec (Z.min size (Z.of_nat (length x))) 0); [lia|].
  destruct (Nat.eqb_spec (length x) 0) as [E|E]; cbn [andb negb].
  - rewrite E. destruct (Z.ltb_spec 0 (Z.min size (Z.of_nat 0))); [lia|]. destruct (Z.ltb_spec (Z.of_nat 0) (Z.min size (Z.of_nat 0))); [lia|]. intros (ps & c & _ & _ & _ & H'). discriminate.
  - destruct (Z.ltb_spec (Z.of_nat (length x)) (Z.min size (Z.of_nat (length x)))); [lia|]. intros (ps & c & _ & _ & _ & H'). discriminate.
Qed.
Lemma capped_many_fail {A} (x : list A) size e : (0 <= size)%Z -> x <> [] -> ~ capped_random_choice x size true (Fail e).
Proof.
  intros Hs Hx. unfold capped_random_choice, np_choice. destruct (Z.ltb_spec size 0); [lia|]. destruct (Nat.eqb_spec (length x) 0) as [E|E]; [apply length_zero_iff_nil in E; contradiction|]. cbn [andb].
  destruct (Z.ltb_spec (Z.of_nat (length x)) size); cbn [negb andb]; intros (ps & c & _ & _ & _ & H'); discriminate.
Qed.

(* ---- Counter ---- *)
Lemma counter_loop_ok l : forall d, NoDup (map fst d) -> NoDup (map fst (counter_loop d l)) /\
  sum_nat (map snd (counter_loop d l)) = (sum_nat (map snd d) + length l)%nat /\ (forall k, In k (map fst (counter_loop d l)) -> In k (map fst d) \/ In k l).
Proof.
  assert (SP : forall (k : string) n d, NoDup (map fst d) -> sum_nat (map snd (put k n d)) = (sum_nat (map snd d) + n - match get k d with Some m => m | None => 0 end)%nat /\ (match get k d with Some m => m | None => 0 end <= sum_nat (map snd d))%nat).
  { intros k n. induction d as [|(k', m) d IH]; cbn [map fst snd put get]; intros ND; [cbn; lia|]. inversion ND as [|x y N1 N2]; subst. destruct (String.eqb k k'); cbn [map snd]; unfold sum_nat in *; cbn [fold_right] in *; [lia|]. destruct (IH N2). lia. }
  induction l as [|x l IH]; intros d ND; cbn [counter_loop].
  - split; [exact ND|]. split; [cbn; lia|]. tauto.
  - destruct (IH (put x (S match get x d with Some n => n | None => 0%nat end) d)) as (H1 & H2 & H3); [apply put_nodup; exact ND|]. split; [exact H1|]. split.
    + rewrite H2. destruct (SP x (S match get x d with Some n => n | None => 0%nat end) d ND) as (E & L). rewrite E. cbn [length]. lia.
    + intros k Hk. apply H3 in Hk. rewrite put_keys in Hk. cbn. intuition.
Qed.
Lemma counter_ok l : NoDup (map fst (counter l)) /\ sum_nat (map snd (counter l)) = length l /\ (forall k, In k (map fst (counter l)) -> In k l).
Proof. destruct (counter_loop_ok l []) as (H1 & H2 & H3); [constructor|]. split; [exact H1|]. split; [exact H2|]. intros k Hk. destruct (H3 k Hk) as [[]|H]; exact H. Qed.

(* ---- the chosen sequences ---- *)
Lemma concat_disjoint {A} (L : list (list A)) i j a b x : NoDup (concat L) -> nth_error L i = Some a -> nth_error L j = Some b -> In x a -> In x b -> i = j.
Proof.
  revert i j. induction L as [|h L IH]; intros i j ND Ha Hb Ia Ib; [destruct i; discriminate|]. cbn [concat] in ND.
  assert (DJ : forall y, In y h -> In y (concat L) -> False).
  { intros y H1 H2. apply in_split in H1. destruct H1 as (u & v & ->). rewrite <- app_assoc in ND. cbn in ND. apply NoDup_remove_2 in ND. apply ND. apply in_or_app. right. apply in_or_app. right. exact H2. }
  assert (NL : NoDup (concat L)). { clear -ND. induction h as [|y h IHh]; [exact ND|]. apply IHh. cbn in ND. inversion ND; assumption. }
  assert (IN : forall k z, nth_error L k = Some z -> In x z -> In x (concat L)) by (intros k z Hz Iz; apply in_concat; exists z; split; [eapply nth_error_In; exact Hz|exact Iz]).
  destruct i as [|i], j as [|j]; cbn in Ha, Hb.
  - reflexivity.
  - injection Ha as ->. exfalso. eapply DJ; [exact Ia|]. eapply IN; eassumption.
  - injection Hb as ->. exfalso. eapply DJ; [exact Ib|]. eapply IN; eassumption.
  - f_equal. eapply IH; eassumption.
Qed.
Lemma concat_part {A} (L : list (list A)) a : NoDup (concat L) -> In a L -> NoDup a.
Proof.
  induction L as [|h L IH]; intros ND I; [destruct I|]. cbn [concat] in ND. destruct I as [->|I].
  - clear -ND. induction a as [|y a IHa]; [constructor|]. cbn in ND. inversion ND as [|z w N1 N2]; subst. constructor; [|apply IHa; exact N2]. intros C. apply N1. apply in_or_app. left. exact C.
  - apply IH; [|exact I]. clear -ND. induction h as [|y h IHh]; [exact ND|]. apply IHh. cbn in ND. inversion ND; assumption.
Qed.
Lemma get_nth {A} k (a : A) d : get k d = Some a -> exists i, nth_error d i = Some (k, a).
Proof.
  induction d as [|(k', a') d IH]; cbn [get]; [discriminate|]. destruct (String.eqb_spec k k') as [->|N]; [intros E; injection E as ->; exists 0%nat; reflexivity|]. intros H. destruct (IH H) as (i & Hi). exists (S i). exact Hi.
Qed.
Lemma nodup_join {A} (a b : list A) : NoDup a -> NoDup b -> (forall x, In x a -> In x b -> False) -> NoDup (a ++ b).
Proof.
  intros Na Nb. induction Na as [|x a Hx Na IH]; intros DJ; [exact Nb|]. cbn. constructor.
  - intros I. apply in_app_or in I. destruct I as [I|I]; [contradiction|]. apply (DJ x); [left; reflexivity|exact I].
  - apply IH. intros y H1 H2. apply (DJ y); [right; exact H1|exact H2].
Qed.
Lemma sequences_ok c D k chosen : choose_sequences c D k (Ok chosen) ->
  incl chosen (known D c) /\ (well_formed D -> NoDup chosen) /\ (Z.of_nat (length chosen) <= k)%Z /\
  (if category_aware c then (List.Forall (fun p => k <= Z.of_nat (length (snd p)))%Z (category_to_names D) -> Z.of_nat (length chosen) = k)
   else Z.of_nat (length chosen) = Z.min k (Z.of_nat (length (seq_names D)))).
Proof.
  unfold choose_sequences, known. destruct (category_aware c).
  2:{ intros H. apply capped_ok in H. destruct H as (L & I & N). split; [exact I|]. split; [intros (W & _); apply N; exact W|]. split; [lia|exact L]. }
  rewrite nbind_ok. intros (cats & HC & H). rewrite nbind_ok in H. destruct H as (runs & HR & E). injection E as ->. apply capped_many in HC. destruct HC as (LC & _). apply nmap_ok in HR.
  destruct (counter_ok cats) as (NK & SK & _). rewrite <- SK in LC. set (C := category_to_names D) in *. revert NK LC HR. generalize (counter cats). clear cats SK. intros ct. revert runs k.
  induction ct as [|(cat, n) ct IH]; intros runs k NK LC HR.
  - inversion HR; subst. cbn. split; [intros x []|]. split; [constructor|]. split; [lia|]. intros _. reflexivity.
  - inversion HR as [|p r ct' runs' Hr HR']; subst. cbn [map fst] in NK. inversion NK as [|x y N1 N2]; subst. cbn [fst snd] in Hr. destruct (get cat C) as [names|] eqn:EG; [|discriminate]. apply capped_ok in Hr. destruct Hr as (Lr & Ir & Nr).
    cbn [map snd] in *. change (sum_nat (n :: map snd ct)) with (n + sum_nat (map snd ct))%nat in *. destruct (IH runs' (Z.of_nat (sum_nat (map snd ct))) N2 eq_refl HR') as (I1 & N3 & L1 & F1). destruct (get_nth _ _ _ EG) as (i & Hi).
    cbn [concat]. rewrite app_length. split; [|split; [|split]].
    + intros y Hy. apply in_app_or in Hy. destruct Hy as [Hy|Hy]; [|apply I1; exact Hy]. apply in_concat. exists names. split; [|apply Ir; exact Hy]. apply (in_map snd) with (x := (cat, names)). eapply nth_error_In. exact Hi.
    + intros W. apply nodup_join; [|apply N3; exact W|].
      * apply Nr. destruct W as (_ & _ & _ & _ & W). apply (concat_part _ _ W). apply (in_map snd) with (x := (cat, names)). eapply nth_error_In. exact Hi.
      * intros y H1 H2. apply N1. apply in_concat in H2. destruct H2 as (r' & I2 & I3). apply In_nth_error in I2. destruct I2 as (j & Hj).
        assert (X : exists q, nth_error ct j = Some q /\ (match get (fst q) C with Some names => capped_random_choice names (Z.of_nat (snd q)) false | None => nret (Fail EIndex) end) (Ok r')).
        { clear -HR' Hj. revert j Hj. induction HR' as [|q r ct runs Hq _ IH]; intros j Hj; [destruct j; discriminate|]. destruct j as [|j]; cbn in Hj; [injection Hj as ->; exists q; split; [reflexivity|exact Hq]|]. apply IH. exact Hj. }
        destruct X as (q & Eq & Hq). destruct (get (fst q) C) as [names'|] eqn:EG'; [|discriminate]. apply capped_ok in Hq. destruct Hq as (_ & Iq & _). destruct (get_nth _ _ _ EG') as (i' & Hi').
        destruct W as (_ & _ & _ & WK & W). assert (i = i').
        { apply (concat_disjoint (map snd C) i i' names names' y W); [rewrite nth_error_map; rewrite Hi; reflexivity|rewrite nth_error_map; rewrite Hi'; reflexivity|apply Ir; exact H1|apply Iq; exact I3]. }
        subst i'. rewrite Hi in Hi'. injection Hi' as E1 E2. rewrite E1. apply in_map. eapply nth_error_In. exact Eq.
    + lia.
    + intros HF. rewrite Nat2Z.inj_add. rewrite F1.
      * assert (HL : (Z.of_nat (length names) >= Z.of_nat (n + sum_nat (map snd ct)))%Z). { rewrite Forall_forall in HF. specialize (HF (cat, names)). cbn in HF. specialize (HF ltac:(eapply nth_error_In; exact Hi)). lia. } lia.
      * eapply Forall_impl; [|exact HF]. intros p Hp. cbv beta in *. lia.
Qed.

(* ---- segments ---- *)
Lemma new_group_spec gap gap_s a f : new_group gap gap_s (f_no a) (f_ts a) f = false <-> close gap gap_s a f.
Proof.
  unfold new_group, close. rewrite orb_false_iff, !andb_false_iff. split.
  - intros (H1 & H2). split.
    + intros G. destruct H1 as [H1|H1]; [apply Z.ltb_ge in H1; exact H1|apply Z.ltb_ge in H1; lia].
    + intros G. destruct H2 as [H2|H2]; [destruct (Rltb_spec gap_s (f_ts f - f_ts a)); [discriminate|lra]|destruct (Rltb_spec 0 gap_s); [discriminate|lra]].
  - intros (H1 & H2). split.
    + destruct (Z.ltb_spec 0 gap); [left; apply Z.ltb_ge; apply H1; assumption|right; reflexivity].
    + destruct (Rltb_spec 0 gap_s); [left; destruct (Rltb_spec gap_s (f_ts f - f_ts a)); [specialize (H2 ltac:(assumption)); lra|reflexivity]|right; reflexivity].
Qed.
Lemma chain_snoc {A} (P : A -> A -> Prop) l a b : chain P (l ++ [a]) -> P a b -> chain P (l ++ [a; b]).
Proof.
  induction l as [|x l IH]; cbn [app].
  - intros _ H. cbn. auto.
  - destruct l as [|y l].
    + cbn. intros (H1 & _) H2. auto.
    + cbn [app] in *. intros (H1 & H2) H3. split; [exact H1|]. apply IH; assumption.
Qed.
Lemma chain_cons_snoc {A} (P : A -> A -> Prop) l a a' : chain P (l ++ [a]) -> (forall x, P x a -> P x a') -> chain P (l ++ [a']).
Proof.
  induction l as [|x l IH]; cbn [app]; [auto|]. destruct l as [|y l]; cbn [app] in *.
  - intros (H1 & _) H. split; [apply H; exact H1|exact I].
  - intros (H1 & H2) H. split; [exact H1|apply IH; assumption].
Qed.
Lemma split_loop_ok gap gap_s l : forall S0 s0 a out,
  List.Forall (fun s => s <> [] /\ chain (close gap gap_s) s) (S0 ++ [s0 ++ [a]]) ->
  chain (fun s s' => forall before x y after, s = before ++ [x] -> s' = y :: after -> ~ close gap gap_s x y) (S0 ++ [s0 ++ [a]]) ->
  split_loop gap gap_s (map (map f_idx) (S0 ++ [s0 ++ [a]])) (f_no a) (f_ts a) l = Ok out ->
  exists segs, out = map (map f_idx) segs /\ is_split gap gap_s (concat (S0 ++ [s0 ++ [a]]) ++ l) segs.
Proof.
  induction l as [|f l IH]; intros S0 s0 a out HF HC E; cbn [split_loop] in E.
  - injection E as <-. exists (S0 ++ [s0 ++ [a]]). split; [reflexivity|]. rewrite app_nil_r. split; [reflexivity|]. split; assumption.
  - destruct (_ && _)%bool; [discriminate|]. destruct (new_group gap gap_s (f_no a) (f_ts a) f) eqn:EN; cbn [rbind] in E.
    + specialize (IH (S0 ++ [s0 ++ [a]]) [] f out). cbn [app] in IH. destruct IH as (segs & E1 & E2).
      * apply Forall_app. split; [exact HF|]. constructor; [|constructor]. split; [discriminate|exact I].
      * rewrite <- app_assoc. cbn [app]. apply chain_snoc; [exact HC|]. intros before x y after Ex Ey. apply app_inj_tail in Ex. destruct Ex as (_ & <-). injection Ey as <- _. intros C. apply new_group_spec in C. congruence.
      * rewrite map_app. exact E.
      * exists segs. split; [exact E1|]. rewrite concat_app in E2. cbn [concat] in E2. rewrite app_nil_r, <- app_assoc in E2. exact E2.
    + specialize (IH S0 (s0 ++ [a]) f out). destruct IH as (segs & E1 & E2).
      * apply Forall_app in HF. destruct HF as (F1 & F2). apply Forall_app. split; [exact F1|]. inversion F2 as [|x y (N & C) _]; subst. constructor; [|constructor]. split; [destruct s0; discriminate|]. rewrite <- app_assoc. apply chain_snoc; [exact C|]. apply new_group_spec. exact EN.
      * apply (chain_cons_snoc _ _ _ _ HC). intros s H before x y after Es Ey. destruct s0 as [|z s0]; cbn in Ey; injection Ey as <- _; eapply H; try reflexivity; exact Es.
      * rewrite <- E. unfold append_last. rewrite !map_app. cbn [map]. destruct (map (map f_idx) S0 ++ [map f_idx (s0 ++ [a])]) eqn:EE; [destruct (map (map f_idx) S0); discriminate|]. rewrite <- EE, removelast_last, last_last. cbn [rbind]. rewrite !map_app. cbn [map]. reflexivity.
      * exists segs. split; [exact E1|]. rewrite !concat_app in *. cbn [concat] in *. rewrite !app_nil_r in *. rewrite <- !app_assoc in *. exact E2.
Qed.
Theorem split_ok gap gap_s l out : split_to_segments gap gap_s l = Ok out -> exists segs, out = map (map f_idx) segs /\ is_split gap gap_s l segs.
Proof.
  unfold split_to_segments. destruct (_ && _)%bool; [discriminate|]. destruct l as [|f l]; cbn [split_loop].
  - intros E. injection E as <-. exists []. split; [reflexivity|]. split; [reflexivity|]. split; [constructor|exact I].
  - destruct (_ && _)%bool; [discriminate|]. destruct (new_group _ _ _ _ f); [|discriminate]. cbn [rbind app]. intros E. apply (split_loop_ok gap gap_s l [] [] f out); [|exact I|exact E]. constructor; [|constructor]. split; [discriminate|exact I].
Qed.
Lemma split_loop_total gap gap_s l : forall segs last_no last_ts, segs <> [] ->
  (match l with f :: _ => (f_ts f <= 0)%R -> (last_no < f_no f)%Z | [] => True end) -> chain (fun a b => (f_ts b <= 0)%R -> (f_no a < f_no b)%Z) l ->
  exists out, split_loop gap gap_s segs last_no last_ts l = Ok out.
Proof.
  induction l as [|f l IH]; intros segs last_no last_ts HS H1 H2; cbn [split_loop]; [eexists; reflexivity|].
  assert (EB : (Rleb (f_ts f) 0 && (f_no f <=? last_no)%Z)%bool = false). { destruct (Rleb_spec (f_ts f) 0); [|reflexivity]. cbn. apply Z.leb_gt. apply H1. assumption. }
  rewrite EB. assert (EX : exists segs', (if new_group gap gap_s last_no last_ts f then Ok (segs ++ [[f_idx f]]) else append_last segs (f_idx f)) = Ok segs' /\ segs' <> []).
  { destruct (new_group _ _ _ _ f); [eexists; split; [reflexivity|destruct segs; discriminate]|]. unfold append_last. destruct segs as [|s segs]; [congruence|]. eexists. split; [reflexivity|]. destruct (removelast (s :: segs)); discriminate. }
  destruct EX as (segs' & -> & HS'). cbn [rbind]. apply IH; [exact HS'| |]; destruct l as [|g l]; try exact I; cbn in H2; apply H2.
Qed.
Theorem split_total gap gap_s l : (0 <= gap)%Z -> (0 < gap)%Z \/ (0 < gap_s)%R -> playable l -> exists out, split_to_segments gap gap_s l = Ok out.
Proof.
  intros Hg HL (HF & HC). unfold split_to_segments. assert (E : ((gap <=? 0)%Z && Rleb gap_s 0)%bool = false).
  { destruct (Z.leb_spec gap 0); [|reflexivity]. cbn. destruct (Rleb_spec gap_s 0); [|reflexivity]. destruct HL; [lia|lra]. }
  rewrite E. destruct l as [|f l]; cbn [split_loop]; [eexists; reflexivity|]. inversion HF as [|x y (H1 & H2) HF']; subst.
  assert (EB : (Rleb (f_ts f) 0 && (f_no f <=? - gap - 1)%Z)%bool = false). { apply andb_false_iff. right. apply Z.leb_gt. lia. } rewrite EB.
  assert (EN : new_group gap gap_s (- gap - 1) (- gap_s - 1) f = true).
  { unfold new_group. apply orb_true_iff. destruct HL as [HL|HL]; [left|right]; apply andb_true_iff.
    - split; apply Z.ltb_lt; lia.
    - split; [destruct (Rltb_spec gap_s (f_ts f - (- gap_s - 1))); [reflexivity|lra]|destruct (Rltb_spec 0 gap_s); [reflexivity|lra]]. }
  rewrite EN. cbn [rbind app]. apply split_loop_total; [discriminate| |]; destruct l as [|g l]; try exact I; cbn in HC; apply HC.
Qed.
Lemma seg_lt_len m x : if seg_ltb m x then (length m <= length x)%nat else (length x <= length m)%nat.
Proof.
  unfold seg_ltb. destruct (Nat.ltb_spec (length m) (length x)); cbn [orb]; [lia|]. destruct (Nat.eqb_spec (length m) (length x)); cbn [andb]; [destruct (list_ltb m x); lia|lia].
Qed.
Lemma longest_ok rest : forall s, let m := fold_left (fun m x => if seg_ltb m x then x else m) rest s in In m (s :: rest) /\ List.Forall (fun x => (length x <= length m)%nat) (s :: rest).
Proof.
  induction rest as [|x rest IH]; intros s; cbn [fold_left]; [split; [left; reflexivity|constructor; [lia|constructor]]|].
  pose proof (seg_lt_len s x) as L. destruct (seg_ltb s x).
  - destruct (IH x) as (H1 & H2). split; [right; exact H1|]. inversion H2 as [|y z L2 H3]; subst. constructor; [cbv zeta in *; lia|]. constructor; [exact L2|exact H3].
  - destruct (IH s) as (H1 & H2). split; [destruct H1 as [H1|H1]; [left; exact H1|right; right; exact H1]|]. inversion H2 as [|y z L2 H3]; subst. constructor; [exact L2|]. constructor; [cbv zeta in *; lia|exact H3].
Qed.
Lemma cull_ok segs n : segs <> [] -> exists out, cull_short_segments segs n = Ok out /\ out <> [] /\
  forall s, In s out -> In s segs /\ ((Z.of_nat (length s) < n)%Z -> List.Forall (fun x => (length x <= length s)%nat) segs).
Proof.
  destruct segs as [|s rest]; [congruence|]. intros _. unfold cull_short_segments. destruct (longest_ok rest s) as (H1 & H2). cbv zeta in H1, H2. set (m := fold_left _ rest s) in *.
  destruct (Z.ltb_spec (Z.of_nat (length m)) n) as [L|L].
  - exists [m]. split; [reflexivity|]. split; [discriminate|]. intros x [<-|[]]. split; [exact H1|]. intros _. exact H2.
  - eexists. split; [reflexivity|]. split.
    + intros C. assert (I : In m (filter (fun s => (n <=? Z.of_nat (length s))%Z) (s :: rest))) by (apply filter_In; split; [exact H1|apply Z.leb_le; exact L]). rewrite C in I. destruct I.
    + intros x Hx. apply filter_In in Hx. destruct Hx as (Hx & Lx). apply Z.leb_le in Lx. split; [exact Hx|]. lia.
Qed.
Lemma piece_refl {A} (l : list A) : piece l l.
Proof. exists [], []. rewrite app_nil_r. reflexivity. Qed.
Lemma split_nonempty gap gap_s l segs : is_split gap gap_s l segs -> l <> [] -> segs <> [].
Proof. intros (E & _) H C. subst. apply H. reflexivity. Qed.
Lemma piece_concat {A} (s : list A) L : In s L -> piece s (concat L).
Proof. intros H. apply in_split in H. destruct H as (u & v & ->). exists (concat u), (concat v). rewrite concat_app. reflexivity. Qed.
Lemma limits_bool c : ((0 <? max_gap c)%Z || Rltb 0 (max_gap_seconds c))%bool = true <-> limits_on c.
Proof. unfold limits_on. rewrite orb_true_iff, Z.ltb_lt. destruct (Rltb_spec 0 (max_gap_seconds c)); split; intros [H|H]; try (left; assumption); try discriminate; try lra; right; auto. Qed.
(* what the index lists: every position of every kept segment *)
Definition kept (c : sampler) (D : dataset) (n : Z) (name : string) (segment : list stamp) : Prop :=
  piece segment (frames_of D name) /\
  (limits_on c -> exists segs, is_split (max_gap c) (max_gap_seconds c) (frames_of D name) segs /\ In segment segs /\
                  ((Z.of_nat (length segment) < n)%Z -> List.Forall (fun s => (length s <= length segment)%nat) segs)) /\
  (~ limits_on c -> segment = frames_of D name).
Lemma index_ok c D name n index s i : build_segment_index c D name n = Ok index -> In (s, i) index -> (i < length s)%nat /\ exists segment, s = map f_idx segment /\ kept c D n name segment.
Proof.
  unfold build_segment_index. destruct (((0 <? max_gap c)%Z || Rltb 0 (max_gap_seconds c))%bool) eqn:EL.
  - destruct (split_to_segments _ _ _) as [out|] eqn:ES; [|discriminate]. cbn [rbind]. destruct (split_ok _ _ _ _ ES) as (segs & -> & HS). destruct (cull_short_segments _ n) as [cs|] eqn:EC; [|discriminate]. cbn [rbind]. destruct cs as [|c0 cs']; [discriminate|]. set (cs := c0 :: cs') in *. cbn [rbind]. intros E I. apply (f_equal (fun r => match r with Ok x => x | Fail _ => [] end)) in E. cbv beta iota in E. rewrite <- E in I. clear E.
    apply in_flat_map in I. destruct I as (s' & I1 & I2). apply in_map_iff in I2. destruct I2 as (j & E & I2). injection E as -> ->. apply in_seq in I2. split; [lia|].
    destruct (cull_ok (map (map f_idx) segs) n) as (cs2 & E2 & _ & H2). { intros C. rewrite C in EC. discriminate. } rewrite EC in E2. injection E2 as <-. destruct (H2 s I1) as (I3 & L3). apply in_map_iff in I3. destruct I3 as (segment & <- & I3).
    exists segment. split; [reflexivity|]. split; [|split].
    + destruct HS as (HS & _). rewrite <- HS. apply piece_concat. exact I3.
    + intros _. exists segs. split; [exact HS|]. split; [exact I3|]. rewrite map_length in L3. intros L. specialize (L3 L). rewrite Forall_map in L3. eapply Forall_impl; [|exact L3]. intros x Hx. cbv beta in Hx. rewrite map_length in Hx. exact Hx.
    + intros C. exfalso. apply C. apply limits_bool. exact EL.
  - cbn [rbind]. intros E I. injection E as <-. cbn [flat_map] in I. rewrite app_nil_r in I. apply in_map_iff in I. destruct I as (j & E & I2). injection E as <- ->. apply in_seq in I2. split; [lia|]. exists (frames_of D name). split; [reflexivity|]. split; [apply piece_refl|]. split; [|auto]. intros C. apply limits_bool in C. congruence.
Qed.
Lemma window_ok {A} (l : list A) n start : (0 <= start)%Z -> (0 <= n)%Z -> (start + n <= Z.of_nat (length l))%Z ->
  piece (firstn (Z.to_nat n) (skipn (Z.to_nat start) l)) l /\ length (firstn (Z.to_nat n) (skipn (Z.to_nat start) l)) = Z.to_nat n.
Proof.
  intros H1 H2 H3. split.
  - exists (firstn (Z.to_nat start) l), (skipn (Z.to_nat n) (skipn (Z.to_nat start) l)). rewrite firstn_skipn, firstn_skipn. reflexivity.
  - rewrite firstn_length, skipn_length. lia.
Qed.
Lemma frames_ok c D n name r : (0 < n)%Z -> NoDup (indices_of D name) -> choose_frames c D n name (Ok r) -> contribution c D n name r.
Proof.
  intros Hn W. unfold choose_frames, contribution. destruct (sample_consecutive_frames c); intros H.
  - rewrite nbind_ok in H. destruct H as (index & E & H). symmetry in E. rewrite nbind_ok in H. destruct H as (i & Hi & H). destruct (nth_error index i) as [(s, j)|] eqn:EN; [|discriminate]. apply nth_error_In in EN. destruct (index_ok _ _ _ _ _ _ _ E EN) as (Lj & segment & -> & (K1 & K2 & K3)). rewrite map_length in *. exists segment.
    destruct (Z.leb_spec (Z.of_nat (length segment)) n) as [L|L].
    + injection H as ->. split; [apply piece_refl|]. rewrite map_length. split; [lia|]. auto.
    + injection H as ->. match goal with |- context [skipn (Z.to_nat ?st) _] => destruct (window_ok (map f_idx segment) n st) as (W1 & W2); [lia|lia|rewrite map_length; lia|] end. split; [exact W1|]. rewrite W2. split; [lia|]. auto.
  - apply capped_ok in H. destruct H as (L & I & N). auto.
Qed.

(* ---- the batch ---- *)
Lemma batch_ok c D b : well_formed D -> sample_batch c D (Ok b) -> exists n chosen runs, In n (images_per_seq_options c) /\ (0 < n)%Z /\
  choose_sequences c D (- (- batch_size c / n)) (Ok chosen) /\ Forall2 (fun name r => contribution c D n name r) chosen runs /\
  b_frames b = firstn (Z.to_nat (batch_size c)) (concat runs) /\ (b_floats b = true <-> In [] runs).
Proof.
  intros W. unfold sample_batch. rewrite nbind_ok. intros (n & Hn & H). assert (In n (images_per_seq_options c)) as In_. { unfold np_choice1 in Hn. destruct (images_per_seq_options c); [discriminate|]. destruct Hn as (a & I & E). injection E as ->. exact I. }
  destruct (Z.leb_spec n 0) as [L|L]; [discriminate|]. rewrite nbind_ok in H. destruct H as (chosen & HS & H). rewrite nbind_ok in H. destruct H as (runs & HR & H). apply nmap_ok in HR.
  exists n, chosen, runs. split; [exact In_|]. split; [exact L|]. split; [exact HS|]. split.
  - clear -HR L W. induction HR as [|name r chosen runs Hr _ IH]; constructor; [|exact IH]. apply frames_ok; [exact L|apply W|exact Hr].
  - destruct runs as [|r0 runs]; [discriminate|]. apply (f_equal (fun r => match r with Ok x => x | Fail _ => {| b_frames := []; b_floats := false |} end)) in H. cbv beta iota in H. subst b. cbn [b_frames b_floats]. split; [reflexivity|].
    rewrite existsb_exists. split; [intros (r & I & E); apply Nat.eqb_eq, length_zero_iff_nil in E; subst; exact I|intros I; exists []; auto].
Qed.
Lemma contribution_in c D n name r : well_formed D -> contribution c D n name r -> NoDup r /\ incl r (indices_of D name).
Proof.
  intros W. unfold contribution. destruct (sample_consecutive_frames c); [|tauto]. intros (segment & (p1 & q1 & E1) & _ & (p2 & q2 & E2) & _).
  assert (E : indices_of D name = map f_idx p2 ++ (p1 ++ r ++ q1) ++ map f_idx q2) by (unfold indices_of; rewrite E2, !map_app, E1; reflexivity).
  destruct W as (_ & W & _). specialize (W name). rewrite E in W. split.
  - clear -W. assert (K : forall (a b : list nat), NoDup (a ++ b) -> NoDup a /\ NoDup b). { induction a as [|x a IH]; cbn; intros b H; [split; [constructor|exact H]|]. inversion H as [|y z N1 N2]; subst. destruct (IH b N2). split; [constructor; [intros C; apply N1; apply in_or_app; left; exact C|assumption]|assumption]. }
    apply K in W. destruct W as (_ & W). apply K in W. destruct W as (W & _). apply K in W. destruct W as (_ & W). apply K in W. apply W.
  - intros x Hx. rewrite E. apply in_or_app. right. apply in_or_app. left. apply in_or_app. right. apply in_or_app. left. exact Hx.
Qed.
Lemma firstn_nodup {A} n (l : list A) : NoDup l -> NoDup (firstn n l).
Proof.
  revert n. induction l as [|x l IH]; intros n ND; destruct n as [|n]; cbn; try constructor; inversion ND as [|y z N1 N2]; subst.
  - intros C. apply N1. rewrite <- (firstn_skipn n l). apply in_or_app. left. exact C.
  - apply IH. exact N2.
Qed.
Theorem batch_nodup c D b : well_formed D -> sample_batch c D (Ok b) -> NoDup (b_frames b).
Proof.
  intros W H. destruct (batch_ok c D b W H) as (n & chosen & runs & _ & _ & HS & HR & -> & _). apply firstn_nodup. apply sequences_ok in HS. destruct HS as (_ & ND & _). specialize (ND W).
  assert (K : NoDup (concat runs) /\ forall x, In x (concat runs) -> exists name, In name chosen /\ In x (indices_of D name)); [|apply K].
  induction HR as [|name r chosen runs Hr HR IH]; [split; [constructor|intros x []]|]. inversion ND as [|y z N1 N2]; subst. destruct (IH N2) as (IH1 & IH2). destruct (contribution_in c D n name r W Hr) as (Nr & Ir). cbn [concat]. split.
  - apply nodup_join; [exact Nr|exact IH1|]. intros x H1 H2. destruct (IH2 x H2) as (name' & I1 & I2). apply N1. destruct W as (_ & _ & W & _). rewrite (W name name' x (Ir x H1) I2). exact I1.
  - intros x Hx. apply in_app_or in Hx. destruct Hx as [Hx|Hx]; [exists name; split; [left; reflexivity|apply Ir; exact Hx]|]. destruct (IH2 x Hx) as (name' & I1 & I2). exists name'. split; [right; exact I1|exact I2].
Qed.
Lemma ceil_ok a b : (0 < b)%Z -> rounded_up a b (- (- a / b)).
Proof. intros Hb. unfold rounded_up. pose proof (Z.div_mod (- a) b ltac:(lia)). pose proof (Z.mod_pos_bound (- a) b Hb). nia. Qed.
Lemma contribution_full c D n name r : (0 < n)%Z -> contribution c D n name r -> offers c D n name -> Z.of_nat (length r) = n.
Proof.
  intros Hn. unfold contribution, offers, indices_of. destruct (sample_consecutive_frames c); [|rewrite map_length; intros (_ & _ & L); lia].
  intros (segment & _ & L & _ & K2 & K3) HO. destruct (((0 <? max_gap c)%Z || Rltb 0 (max_gap_seconds c))%bool) eqn:EL.
  - apply limits_bool in EL. destruct (K2 EL) as (segs & HS & I & HM). destruct (proj1 HO EL segs HS) as (s & Is & Ls). destruct (Z.lt_ge_cases (Z.of_nat (length segment)) n) as [C|C]; [|lia]. specialize (HM C). rewrite Forall_forall in HM. specialize (HM s Is). lia.
  - assert (NL : ~ limits_on c) by (intros C; apply limits_bool in C; congruence). rewrite K3 in L by exact NL. destruct HO as (_ & HO). specialize (HO NL). lia.
Qed.
Theorem batch_full c D b : well_formed D -> (0 < batch_size c)%Z ->
  (forall n name, In n (images_per_seq_options c) -> In name (known D c) -> offers c D n name) ->
  (forall n k, In n (images_per_seq_options c) -> rounded_up (batch_size c) n k ->
     if category_aware c then List.Forall (fun p => k <= Z.of_nat (length (snd p)))%Z (category_to_names D) else (k <= Z.of_nat (length (seq_names D)))%Z) ->
  sample_batch c D (Ok b) -> Z.of_nat (length (b_frames b)) = batch_size c.
Proof.
  intros W HB HO HK H. destruct (batch_ok c D b W H) as (n & chosen & runs & In_ & Hn & HS & HR & -> & _). pose proof (ceil_ok (batch_size c) n Hn) as HC. specialize (HK n _ In_ HC). set (k := (- (- batch_size c / n))%Z) in *.
  apply sequences_ok in HS. destruct HS as (HI & _ & _ & HL). assert (LC : Z.of_nat (length chosen) = k) by (destruct (category_aware c); [apply HL; exact HK|lia]).
  assert (LR : Z.of_nat (length (concat runs)) = (n * Z.of_nat (length chosen))%Z).
  { clear LC HL. revert HI. induction HR as [|name r chosen runs Hr HR IH]; intros HI; [cbn; lia|]. cbn [concat length]. rewrite app_length, Nat2Z.inj_add, IH by (intros x Hx; apply HI; right; exact Hx). rewrite (contribution_full c D n name r Hn Hr) by (apply HO; [exact In_|apply HI; left; reflexivity]). lia. }
  rewrite firstn_length. rewrite LC in LR. unfold rounded_up in HC. lia.
Qed.

(* ---- no call fails ---- *)
Lemma index_total c D n name : frames_of D name <> [] -> (limits_on c -> (0 <= max_gap c)%Z /\ playable (frames_of D name)) ->
  exists index, build_segment_index c D name n = Ok index /\ index <> [].
Proof.
  intros HN HL. unfold build_segment_index. destruct (((0 <? max_gap c)%Z || Rltb 0 (max_gap_seconds c))%bool) eqn:EL.
  - apply limits_bool in EL. destruct (HL EL) as (Hg & HP). destruct (split_total (max_gap c) (max_gap_seconds c) (frames_of D name) Hg EL HP) as (out & E). rewrite E. cbn [rbind]. destruct (split_ok _ _ _ _ E) as (segs & -> & HS).
    destruct (cull_ok (map (map f_idx) segs) n) as (cs & E2 & N2 & H2). { intros C. apply map_eq_nil in C. subst. apply HN. destruct HS as (HS & _). symmetry. exact HS. }
    rewrite E2. cbn [rbind]. destruct cs as [|s cs]; [congruence|]. cbn [rbind]. eexists. split; [reflexivity|]. destruct (H2 s (or_introl eq_refl)) as (I & _). apply in_map_iff in I. destruct I as (s' & <- & I). destruct HS as (_ & HS & _). rewrite Forall_forall in HS. destruct (HS s' I) as (N & _). cbn [flat_map]. destruct s'; [congruence|]. discriminate.
  - cbn [rbind flat_map]. eexists. split; [reflexivity|]. unfold indices_of. destruct (frames_of D name); [congruence|]. discriminate.
Qed.
Theorem batch_total c D e : ready c D -> ~ sample_batch c D (Fail e).
Proof.
  intros (HO & HN & HB & HK & HF) H. unfold sample_batch in H. apply nbind_fail in H. destruct H as [H|(n & Hn & H)].
  { unfold np_choice1 in H. destruct (images_per_seq_options c); [congruence|]. destruct H as (a & _ & E). discriminate. }
  assert (In n (images_per_seq_options c)) as In_. { unfold np_choice1 in Hn. destruct (images_per_seq_options c); [discriminate|]. destruct Hn as (a & I & E). injection E as ->. exact I. }
  rewrite Forall_forall in HO. pose proof (HO n In_) as Ln. destruct (Z.leb_spec n 0); [lia|]. pose proof (ceil_ok (batch_size c) n Ln) as HC. set (k := (- (- batch_size c / n))%Z) in *. assert (Hk : (0 < k)%Z) by (unfold rounded_up in HC; nia).
  apply nbind_fail in H. destruct H as [H|(chosen & HS & H)].
  { unfold choose_sequences in H. destruct (category_aware c); [|apply capped_fail in H; [exact H|lia]]. apply nbind_fail in H. destruct H as [H|(cats & Hc & H)].
    - apply capped_many_fail in H; [exact H|lia|]. destruct HK as (HK & _). intros C. apply map_eq_nil in C. contradiction.
    - apply capped_many in Hc. destruct Hc as (_ & Ic). apply nbind_fail in H. destruct H as [H|(ch & _ & H)]; [|discriminate]. apply nmap_fail in H. destruct H as (p & Ip & H). destruct (counter_ok cats) as (_ & _ & IK).
      assert (IP : In (fst p) (map fst (category_to_names D))) by (apply Ic, IK, in_map; exact Ip).
      destruct (get (fst p) (category_to_names D)) as [names|] eqn:EG; [apply capped_fail in H; [exact H|lia]|]. apply get_none in EG. contradiction. }
  apply nbind_fail in H. pose proof HS as HS'. apply sequences_ok in HS'. destruct HS' as (IC & _). destruct H as [H|(runs & HR & H)].
  - apply nmap_fail in H. destruct H as (name & I & H). unfold choose_frames in H. destruct (sample_consecutive_frames c); [|apply capped_fail in H; [exact H|lia]]. destruct (HF eq_refl name (IC name I)) as (F1 & F2). destruct (index_total c D n name F1 F2) as (index & E & NI).
    apply nbind_fail in H. destruct H as [H|(index' & H' & H)]; [unfold nret in H; congruence|]. unfold nret in H'. rewrite E in H'. injection H' as ->. apply nbind_fail in H. destruct H as [H|(i & Hi & H)].
    + unfold np_randint in H. destruct index; [congruence|]. cbn in H. destruct H as (i & _ & C). discriminate.
    + unfold np_randint in Hi. destruct (nth_error index i) as [(s, j)|] eqn:EN; [destruct (_ <=? _)%Z; discriminate|]. apply nth_error_None in EN. destruct (length index) eqn:EL; [discriminate|]. destruct Hi as (i' & Li & Ei). injection Ei as ->. lia.
  - destruct runs as [|r runs]; [|discriminate]. apply nmap_ok in HR. inversion HR; subst. clear -HS HK Hk. unfold choose_sequences in HS. destruct (category_aware c).
    + rewrite nbind_ok in HS. destruct HS as (cats & Hc & HS). rewrite nbind_ok in HS. destruct HS as (ch & Hch & E). unfold nret in E. injection E as E. apply capped_many in Hc. destruct Hc as (Lc & _). destruct (counter_ok cats) as (NK & SK & _). apply nmap_ok in Hch. destruct HK as (_ & _ & HK).
      destruct (counter cats) as [|p ct] eqn:EC; [cbn in SK; lia|]. inversion Hch as [|p' r ct' ch' Hr _]; subst. cbn in E. symmetry in E. apply app_eq_nil in E. destruct E as (-> & _). destruct (get (fst p) (category_to_names D)) as [names|] eqn:EG; [|discriminate]. apply capped_ok in Hr. destruct Hr as (Lr & _). cbn in Lr. destruct (get_nth _ _ _ EG) as (i & Hi). apply nth_error_In in Hi. rewrite Forall_forall in HK. specialize (HK _ Hi). cbn in HK. destruct names; [congruence|]. cbn [length] in Lr.
      assert (PC : List.Forall (fun p => (0 < snd p)%nat) (counter cats)).
      { unfold counter. assert (G : forall l d, List.Forall (fun p : string * nat => (0 < snd p)%nat) d -> List.Forall (fun p => (0 < snd p)%nat) (counter_loop d l)).
        { induction l as [|x l IH]; intros d Hd; [exact Hd|]. cbn [counter_loop]. apply IH. generalize (match get x d with Some n => n | None => 0%nat end). intros m. induction d as [|(k', a) d IHd]; cbn [put]; [constructor; [cbn; lia|constructor]|]. inversion Hd; subst. destruct (String.eqb x k'); constructor; cbn; auto; lia. }
        apply G. constructor. }
      rewrite EC in PC. inversion PC; subst. lia.
    + apply capped_ok in HS. destruct HS as (L & _). cbn in L. destruct (seq_names D); [congruence|]. cbn [length] in L. lia.
Qed.
(* every frame of a kept segment can be drawn *)
Theorem frame_reachable c D n name segs s i : sample_consecutive_frames c = true -> limits_on c -> (0 < n)%Z ->
  split_to_segments (max_gap c) (max_gap_seconds c) (frames_of D name) = Ok segs -> In s segs -> (n <= Z.of_nat (length s))%Z -> In i s ->
  exists r, choose_frames c D n name (Ok r) /\ In i r.
Proof.
  intros HC HL Hn HS Is Ls Ii. unfold choose_frames. rewrite HC. destruct (cull_ok segs n) as (cs & E2 & N2 & H2); [intros C; subst; destruct Is|].
  assert (Ics : In s cs).
  { destruct segs as [|s0 rest]; [destruct Is|]. unfold cull_short_segments in E2. destruct (longest_ok rest s0) as (M1 & M2). cbv zeta in M1, M2. set (m := fold_left _ rest s0) in *. rewrite Forall_forall in M2. pose proof (M2 s Is). destruct (Z.ltb_spec (Z.of_nat (length m)) n); [lia|]. apply (f_equal (fun r => match r with Ok x => x | Fail _ => [] end)) in E2. cbv beta iota in E2. rewrite <- E2. apply filter_In. split; [exact Is|]. apply Z.leb_le. exact Ls. }
  assert (EB : build_segment_index c D name n = Ok (flat_map (fun s => map (fun i => (s, i)) (seq 0 (length s))) cs)).
  { unfold build_segment_index. rewrite (proj2 (limits_bool c) HL), HS. cbn [rbind]. rewrite E2. cbn [rbind]. destruct cs; [congruence|]. reflexivity. }
  apply In_nth_error in Ii. destruct Ii as (j & Hj). assert (Lj : (j < length s)%nat) by (apply nth_error_Some; congruence).
  assert (II : In (s, j) (flat_map (fun s => map (fun i => (s, i)) (seq 0 (length s))) cs)). { apply in_flat_map. exists s. split; [exact Ics|]. apply in_map. apply in_seq. lia. }
  apply In_nth_error in II. destruct II as (q & Hq). set (index := flat_map _ cs) in *.
  set (start := Z.min (Z.max (Z.of_nat j - n / 2) 0) (Z.of_nat (length s) - n)).
  assert (D2 : (0 <= n / 2 < n)%Z) by (split; [apply Z.div_pos; lia|apply Z.div_lt; lia]).
  exists (if (Z.of_nat (length s) <=? n)%Z then s else firstn (Z.to_nat n) (skipn (Z.to_nat start) s)). split.
  - rewrite nbind_ok. exists index. split; [symmetry; exact EB|]. rewrite nbind_ok. exists q. split.
    + assert (Lq : (q < length index)%nat) by (apply nth_error_Some; congruence). unfold np_randint. destruct (length index); [lia|]. exists q. auto.
    + rewrite Hq. destruct (_ <=? _)%Z; reflexivity.
  - destruct (Z.leb_spec (Z.of_nat (length s)) n); [eapply nth_error_In; exact Hj|]. assert (S1 : (Z.to_nat start <= j)%nat /\ (j - Z.to_nat start < Z.to_nat n)%nat) by (unfold start; lia).
    apply nth_error_In with (n := (j - Z.to_nat start)%nat). rewrite nth_error_firstn. destruct (Nat.ltb_spec (j - Z.to_nat start) (Z.to_nat n)); [|lia]. rewrite nth_error_skipn. rewrite <- Hj. f_equal. lia.
Qed.
