(* Proofs about the registry of file formats. *)
From Coq Require Import Ascii String.
From Verif Require Import Base Pluggable PluggableSpec.
Local Open Scope list_scope.

Section P.
Context {S D O : Type}.
Notation interp := (interpreter S D O).
Lemma run_reg size (cs : list (call S D O)) : forall reg s, fst (run size (reg, s) cs) = rev (registered cs) ++ reg.
Proof.
  induction cs as [|c cs IH]; intros reg s; [reflexivity|]. unfold run in *. cbn [fold_left]. destruct c as [[i|]|p o|d p t o]; cbn [step register registered].
  - rewrite IH. cbn [rev]. rewrite <- app_assoc. reflexivity.
  - apply IH.
  - apply IH.
  - apply IH.
Qed.
Lemma new_rev (defaults : list interp) : new defaults true = rev defaults.
Proof. unfold new. assert (H : forall l acc, fold_left (fun (reg : list interp) i => i :: reg) l acc = rev l ++ acc) by (induction l as [|x l IH]; intros acc; [reflexivity|]; cbn [fold_left rev]; rewrite IH, <- app_assoc; reflexivity). rewrite H, app_nil_r. reflexivity. Qed.
Lemma load_spec (formats : list interp) s p o : last_that_accepts formats (fun i => read i s p o) (load (rev formats) s p o).
Proof.
  induction formats as [|j formats IH] using rev_ind; [right; split; [intros j []|reflexivity]|].
  rewrite rev_app_distr. cbn [rev app load]. destruct (read j s p o) as [[d|]|e] eqn:E; cbn [rbind].
  - left. exists formats, j, []. split; [reflexivity|]. split; [intros k []|]. left. exists d. split; [exact E|reflexivity].
  - destruct IH as [(b & i & a & EF & HA & HO)|(HA & HO)].
    + left. exists b, i, (a ++ [j]). split; [rewrite EF, <- app_assoc; reflexivity|]. split; [|exact HO]. intros k Hk. apply in_app_iff in Hk. destruct Hk as [Hk|[<-|[]]]; [apply HA; exact Hk|exact E].
    + right. split; [|exact HO]. intros k Hk. apply in_app_iff in Hk. destruct Hk as [Hk|[<-|[]]]; [apply HA; exact Hk|exact E].
  - left. exists formats, j, []. split; [reflexivity|]. split; [intros k []|]. right. exists e. split; [exact E|reflexivity].
Qed.
Lemma accepts_unique {A} (formats : list interp) (ask : interp -> result (option A)) o1 o2 : last_that_accepts formats ask o1 -> last_that_accepts formats ask o2 -> o1 = o2.
Proof.
  assert (K : forall (b1 : list interp) i1 a1 b2 i2 a2, b1 ++ i1 :: a1 = b2 ++ i2 :: a2 -> (forall j, In j a1 -> ask j = Ok None) -> (forall j, In j a2 -> ask j = Ok None) -> ask i1 <> Ok None -> ask i2 <> Ok None -> i1 = i2).
  { intros b1 i1 a1 b2 i2 a2 E H1 H2 N1 N2. apply app_eq_app in E. destruct E as (l & [(E1 & E2)|(E1 & E2)]); destruct l as [|x l]; cbn in E2; injection E2 as E2 E3.
    - symmetry; exact E2.
    - subst. exfalso. apply N1. apply H2. apply in_app_iff. right. left. reflexivity.
    - exact E2.
    - subst. exfalso. apply N2. apply H1. apply in_app_iff. right. left. reflexivity. }
  intros [(b1 & i1 & a1 & E1 & H1 & O1)|(H1 & O1)] [(b2 & i2 & a2 & E2 & H2 & O2)|(H2 & O2)].
  - assert (N1 : ask i1 <> Ok None) by (destruct O1 as [(x & Ex & _)|(x & Ex & _)]; congruence). assert (N2 : ask i2 <> Ok None) by (destruct O2 as [(x & Ex & _)|(x & Ex & _)]; congruence).
    assert (i1 = i2) by (eapply (K b1 i1 a1 b2 i2 a2); try assumption; congruence). subst i2. destruct O1 as [(x & Ex & ->)|(x & Ex & ->)], O2 as [(y & Ey & ->)|(y & Ey & ->)]; congruence.
  - exfalso. assert (I : In i1 formats) by (rewrite E1; apply in_app_iff; right; left; reflexivity). apply H2 in I. destruct O1 as [(x & Ex & _)|(x & Ex & _)]; congruence.
  - exfalso. assert (I : In i2 formats) by (rewrite E2; apply in_app_iff; right; left; reflexivity). apply H1 in I. destruct O2 as [(x & Ex & _)|(x & Ex & _)]; congruence.
  - congruence.
Qed.
Lemma save_spec (formats : list interp) s d p o : List.Forall polite formats -> last_that_saves formats s d p o (save_loop (rev formats) s d p o).
Proof.
  induction formats as [|j formats IH] using rev_ind; intros HP; [right; split; [intros j []|reflexivity]|].
  apply Forall_app in HP. destruct HP as (HP & HJ). inversion HJ as [|j' l' PJ _]; subst.
  rewrite rev_app_distr. cbn [rev app save_loop]. destruct (save j s d p o) as (s', [[|]|e]) eqn:E.
  - left. exists formats, j, []. split; [reflexivity|]. split; [intros k []|]. unfold ask_save. rewrite E. reflexivity.
  - pose proof (PJ _ _ _ _ _ E). subst s'. assert (EJ : ask_save s d p o j = None) by (unfold ask_save; rewrite E; reflexivity).
    destruct (IH HP) as [(b & i & a & EF & HA & HO)|(HA & HO)].
    + left. exists b, i, (a ++ [j]). split; [rewrite EF, <- app_assoc; reflexivity|]. split; [|exact HO]. intros k Hk. apply in_app_iff in Hk. destruct Hk as [Hk|[<-|[]]]; [apply HA; exact Hk|exact EJ].
    + right. split; [|exact HO]. intros k Hk. apply in_app_iff in Hk. destruct Hk as [Hk|[<-|[]]]; [apply HA; exact Hk|exact EJ].
  - left. exists formats, j, []. split; [reflexivity|]. split; [intros k []|]. unfold ask_save. rewrite E. reflexivity.
Qed.
End P.

(* suffixes *)
Lemma ends_with_iff suf s : ends_with suf s = true <-> exists stem, s = append stem suf.
Proof.
  induction s as [|c s IH]; cbn [ends_with].
  - destruct (String.eqb_spec suf ""%string) as [->|N]; [split; [exists ""%string; reflexivity|reflexivity]|]. split; [discriminate|]. intros (stem & E). destruct stem; cbn in E; [congruence|discriminate].
  - destruct (String.eqb_spec suf (String c s)) as [->|N]; [split; [exists ""%string; reflexivity|reflexivity]|]. rewrite IH. split.
    + intros (stem & ->). exists (String c stem). reflexivity.
    + intros (stem & E). destruct stem as [|c' stem]; cbn in E; [congruence|]. injection E as -> ->. exists stem. reflexivity.
Qed.
Lemma lower_app a b : lower (append a b) = append (lower a) (lower b).
Proof. induction a as [|c a IH]; [reflexivity|]. cbn. rewrite IH. reflexivity. Qed.
Lemma all_chars (P : ascii -> bool) : forallb P (map ascii_of_nat (seq 0 256)) = true -> forall c, P c = true.
Proof. intros H c. rewrite forallb_forall in H. apply H. rewrite <- (ascii_nat_embedding c). apply in_map. apply in_seq. pose proof (nat_ascii_bounded c). lia. Qed.
Lemma lower_idem c : lower_char (lower_char c) = lower_char c.
Proof. apply Ascii.eqb_eq. revert c. apply all_chars. vm_compute. reflexivity. Qed.
Lemma lower_same a b : same_letter a b <-> lower_char a = lower_char b.
Proof.
  assert (LC : forall n, (65 <= n <= 90)%nat -> lower_char (ascii_of_nat n) = ascii_of_nat (n + 32) /\ lower_char (ascii_of_nat (n + 32)) = ascii_of_nat (n + 32)).
  { intros n Hn. unfold lower_char. rewrite !nat_ascii_embedding by lia. replace ((65 <=? n) && (n <=? 90))%nat%bool with true by (symmetry; apply andb_true_iff; rewrite !Nat.leb_le; lia). replace ((65 <=? n + 32) && (n + 32 <=? 90))%nat%bool with false by (symmetry; apply andb_false_iff; right; apply Nat.leb_gt; lia). split; reflexivity. }
  split.
  - intros [->|(n & Hn & [(-> & ->)|(-> & ->)])]; [reflexivity| |]; destruct (LC n Hn) as (E1 & E2); congruence.
  - intros E. unfold same_letter. 
    assert (U : forall c, (exists n, (65 <= n <= 90)%nat /\ c = ascii_of_nat n /\ lower_char c = ascii_of_nat (n + 32)) \/ lower_char c = c).
    { intros c. unfold lower_char. destruct ((65 <=? nat_of_ascii c) && (nat_of_ascii c <=? 90))%nat%bool eqn:H; [|right; reflexivity]. apply andb_true_iff in H. rewrite !Nat.leb_le in H. left. exists (nat_of_ascii c). split; [exact H|]. split; [symmetry; apply ascii_nat_embedding|reflexivity]. }
    destruct (U a) as [(n & Hn & Ea & La)|La], (U b) as [(m & Hm & Eb & Lb)|Lb].
    + left. rewrite Ea, Eb. rewrite La, Lb in E. apply (f_equal nat_of_ascii) in E. rewrite !nat_ascii_embedding in E by lia. f_equal. lia.
    + right. exists n. split; [exact Hn|]. left. split; [exact Ea|congruence].
    + right. exists m. split; [exact Hm|]. right. split; [exact Eb|congruence].
    + left. congruence.
Qed.
Lemma text_lower a : forall b, same_text a b <-> lower a = lower b.
Proof.
  induction a as [|x a IH]; intros [|y b]; cbn [same_text lower]; split; try tauto; try discriminate.
  - intros (H1 & H2). apply lower_same in H1. apply IH in H2. congruence.
  - intros E. injection E as E1 E2. split; [apply lower_same; exact E1|apply IH; exact E2].
Qed.
Lemma suffix_split suf : forall s stem, lower s = append stem suf -> exists a b, s = append a b /\ lower b = suf.
Proof.
  intros s stem. revert s. induction stem as [|c stem IH]; intros s E.
  - exists ""%string, s. split; [reflexivity|exact E].
  - destruct s as [|d s]; [discriminate|]. cbn in E. injection E as _ E. destruct (IH s E) as (a & b & -> & Hb). exists (String d a), b. split; [reflexivity|exact Hb].
Qed.
Lemma endswith_str s suf : lower suf = suf -> endswith (PStr s) [suf] = true <-> has_suffix s suf.
Proof.
  intros HL. cbn [endswith existsb]. rewrite orb_false_r, ends_with_iff. unfold has_suffix. split.
  - intros (stem & E). destruct (suffix_split suf s stem E) as (a & b & -> & Hb). exists a, b. split; [reflexivity|]. apply text_lower. congruence.
  - intros (a & b & -> & HT). apply text_lower in HT. exists (lower a). rewrite lower_app, HT, HL. reflexivity.
Qed.
Lemma app_len a b : String.length (append a b) = (String.length a + String.length b)%nat.
Proof. induction a as [|c a IH]; [reflexivity|]. cbn. rewrite IH. reflexivity. Qed.
Lemma suffix_same_len a a' : forall b b', append a b = append a' b' -> String.length b = String.length b' -> b = b'.
Proof.
  revert a'. induction a as [|c a IH]; intros [|c' a'] b b' E L; cbn in E.
  - exact E.
  - exfalso. subst b. cbn in L. rewrite app_len in L. lia.
  - exfalso. subst b'. cbn in L. rewrite app_len in L. lia.
  - injection E as _ E. eapply IH; eassumption.
Qed.
Lemma suffix_unique s x y : has_suffix s x -> has_suffix s y -> String.length x = String.length y -> lower x = lower y.
Proof.
  intros (a & b & -> & H1) (a' & b' & E & H2) L. apply text_lower in H1, H2.
  assert (LL : forall t, String.length (lower t) = String.length t) by (induction t as [|c t IH]; [reflexivity|]; cbn; rewrite IH; reflexivity).
  assert (b = b'). { eapply suffix_same_len; [exact E|]. rewrite <- (LL b), <- (LL b'), H1, H2, !LL. exact L. }
  congruence.
Qed.
