From Coq Require Import Ascii String ZArith NArith Reals Bool Lia Lra List.
From Verif Require Import Base RBase Text TextSpec.
Import ListNotations.
Local Open Scope Z_scope.

(* ---- digits ---- *)
Lemma number_snoc ds d : number (ds ++ [d]) = (10 * number ds + d)%N.
Proof. unfold number. rewrite fold_left_app. reflexivity. Qed.
Lemma number_app a b : number (a ++ b) = (number a * 10 ^ N.of_nat (length b) + number b)%N.
Proof.
  induction b as [|d b IH] using rev_ind; [rewrite app_nil_r; cbn [length]; change (number []) with 0%N; cbn; lia|].
  rewrite app_assoc, !number_snoc, IH, app_length, Nat.add_comm. cbn [length Nat.add]. rewrite Nat2N.inj_succ, N.pow_succ_r'. lia.
Qed.
Lemma number_zeros k : number (repeat 0%N k) = 0%N.
Proof. induction k as [|k IH]; [reflexivity|]. cbn [repeat]. change (0%N :: repeat 0%N k) with ([0%N] ++ repeat 0%N k). rewrite number_app, IH. reflexivity. Qed.
Lemma digits_from_ok fuel : forall n, (n < 2 ^ N.of_nat fuel)%N -> number (digits_from fuel n) = n /\ Forall (fun d => (d < 10)%N) (digits_from fuel n) /\ digits_from fuel n <> [].
Proof.
  induction fuel as [|fuel IH]; intros n Hn.
  - cbn in Hn. assert (n = 0%N) by lia. subst. cbn. split; [reflexivity|]. split; [repeat constructor|discriminate].
  - cbn [digits_from]. destruct (N.ltb_spec n 10) as [L|L]; [split; [cbn; destruct n; reflexivity|]; split; [repeat constructor; exact L|discriminate]|].
    rewrite Nat2N.inj_succ, N.pow_succ_r' in Hn. assert (Hd : (n / 10 < 2 ^ N.of_nat fuel)%N) by (apply N.div_lt_upper_bound; lia). destruct (IH _ Hd) as (E & F & _).
    rewrite number_snoc, E. split; [symmetry; apply N.div_mod; lia|]. split; [apply Forall_app; split; [exact F|]; repeat constructor; apply N.mod_lt; lia|]. destruct (digits_from fuel (n / 10)); discriminate.
Qed.
Lemma size_bound n : (n < 2 ^ N.of_nat (N.size_nat n))%N.
Proof.
  destruct n as [|p]; [cbn; lia|]. cbn [N.size_nat]. induction p as [p IH|p IH|]; cbn [Pos.size_nat]; [| |cbn; lia]; rewrite Nat2N.inj_succ, N.pow_succ_r'; lia.
Qed.
Lemma digits_ok n : number (digits n) = n /\ Forall (fun d => (d < 10)%N) (digits n) /\ digits n <> [].
Proof. apply digits_from_ok, size_bound. Qed.
Lemma digits_len n k : (n < 10 ^ N.of_nat k)%N -> (0 < k)%nat -> (length (digits n) <= k)%nat.
Proof.
  unfold digits. pose proof (size_bound n) as B. revert B. generalize (N.size_nat n) as fuel. intros fuel. revert n k. induction fuel as [|fuel IH]; intros n k B H K; [cbn; lia|]. cbn [digits_from]. destruct (N.ltb_spec n 10) as [L|L]; [cbn; lia|].
  destruct k as [|[|k]]; [lia|cbn in H; lia|]. rewrite Nat2N.inj_succ, N.pow_succ_r' in B. rewrite Nat2N.inj_succ, N.pow_succ_r' in H. rewrite app_length. cbn [length].
  assert (length (digits_from fuel (n / 10)%N) <= S k)%nat; [|lia]. apply IH; [apply N.div_lt_upper_bound; lia|apply N.div_lt_upper_bound; lia|lia].
Qed.
Lemma char_digit d : (d < 10)%N -> digit_of (char_of d) = Some d.
Proof.
  intros H. assert (E : d = 0%N \/ d = 1%N \/ d = 2%N \/ d = 3%N \/ d = 4%N \/ d = 5%N \/ d = 6%N \/ d = 7%N \/ d = 8%N \/ d = 9%N) by lia. repeat (destruct E as [->|E]; [reflexivity|]). subst. reflexivity.
Qed.
Definition starts_digit (l : text) : bool := match l with c :: _ => match digit_of c with Some _ => true | None => false end | [] => false end.
Lemma take_digits_ok ds r : Forall (fun d => (d < 10)%N) ds -> starts_digit r = false -> take_digits (map char_of ds ++ r) = (ds, r).
Proof.
  intros H HR. induction H as [|d ds Hd H IH]; cbn [map app take_digits].
  - destruct r as [|c r]; [reflexivity|]. cbn [take_digits]. cbn in HR. destruct (digit_of c); [discriminate|reflexivity].
  - rewrite (char_digit d Hd), IH. reflexivity.
Qed.
(* characters of printed numbers *)
Definition plain (c : ascii) : Prop := is_space c = false /\ Ascii.eqb c "#"%char = false /\ Ascii.eqb c nl = false.
Lemma char_plain d : (d < 10)%N -> plain (char_of d) /\ Ascii.eqb "."%char (char_of d) = false /\ Ascii.eqb (char_of d) "-"%char = false /\ Ascii.eqb (char_of d) "+"%char = false /\ Ascii.eqb (char_of d) "/"%char = false.
Proof.
  intros H. assert (E : d = 0%N \/ d = 1%N \/ d = 2%N \/ d = 3%N \/ d = 4%N \/ d = 5%N \/ d = 6%N \/ d = 7%N \/ d = 8%N \/ d = 9%N) by lia. repeat (destruct E as [->|E]; [repeat split; reflexivity|]). subst. repeat split; reflexivity.
Qed.
Definition good_word (w : text) : Prop := w <> [] /\ Forall plain w.
Lemma digits_plain ds : Forall (fun d => (d < 10)%N) ds -> Forall plain (map char_of ds).
Proof. intros H. apply Forall_map. eapply Forall_impl; [|exact H]. intros d Hd. apply char_plain. exact Hd. Qed.
Lemma take_sign_digits ds r : Forall (fun d => (d < 10)%N) ds -> ds <> [] -> take_sign (map char_of ds ++ r) = (false, map char_of ds ++ r).
Proof. intros H N. destruct ds as [|d ds]; [congruence|]. inversion H; subst. cbn [map app take_sign]. destruct (char_plain d ltac:(assumption)) as (_ & _ & -> & -> & _). reflexivity. Qed.
Lemma pad_ok d n : (n < 10 ^ N.of_nat d)%N -> (0 < d)%nat -> number (pad_digits d n) = n /\ Forall (fun d => (d < 10)%N) (pad_digits d n) /\ length (pad_digits d n) = d.
Proof.
  intros H K. destruct (digits_ok n) as (E & F & _). unfold pad_digits. rewrite number_app, number_zeros, E. split; [lia|]. split; [apply Forall_app; split; [|exact F]; apply Forall_forall; intros x Hx; apply repeat_spec in Hx; subst; lia|]. rewrite app_length, repeat_length. pose proof (digits_len n d H K). lia.
Qed.
Lemma signed_abs z : signed (z <? 0) (Z.abs_N z) = z.
Proof. unfold signed. rewrite N2Z.inj_abs_N. destruct (Z.ltb_spec z 0); lia. Qed.
Lemma parse_int_print z : parse_int (print_int z) = Some z.
Proof.
  unfold parse_int, print_int, print_nat. destruct (digits_ok (Z.abs_N z)) as (E & F & NE). pose proof (signed_abs z) as SA.
  destruct (z <? 0) eqn:EZ.
  - cbn [app take_sign]. rewrite Ascii.eqb_refl. rewrite <- (app_nil_r (map char_of _)). rewrite (take_digits_ok _ [] F eq_refl), E. destruct (digits (Z.abs_N z)); [congruence|rewrite SA; reflexivity].
  - cbn [app]. rewrite <- (app_nil_r (map char_of _)). rewrite (take_sign_digits _ [] F NE). cbv iota beta. rewrite (take_digits_ok _ [] F eq_refl), E. destruct (digits (Z.abs_N z)); [congruence|rewrite SA; reflexivity].
Qed.
Lemma sign_prefix (neg : bool) w : take_sign w = (false, w) -> take_sign ((if neg then ["-"%char] else []) ++ w) = (neg, w).
Proof. destruct neg; [intros _; reflexivity|intros H; exact H]. Qed.
Lemma parse_float_int z : parse_float (print_int z) = Some {| man := z; exp := 0 |}.
Proof.
  unfold parse_float, print_int, print_nat. destruct (digits_ok (Z.abs_N z)) as (E & F & NE).
  rewrite sign_prefix by (rewrite <- (app_nil_r (map char_of _)); apply take_sign_digits; assumption). cbv iota beta. rewrite <- (app_nil_r (map char_of _)). rewrite (take_digits_ok _ [] F eq_refl). cbv iota beta. rewrite app_nil_r. destruct (digits (Z.abs_N z)) as [|d ds]; [congruence|]. cbn [parse_exp length Z.of_nat]. rewrite E, signed_abs. reflexivity.
Qed.
Lemma parse_float_print d m : parse_float (print_fixed d m) = Some {| man := m; exp := Z.of_nat d |}.
Proof.
  unfold parse_float, print_fixed, print_nat. cbv zeta. set (n := Z.abs_N m). set (p := (10 ^ N.of_nat d)%N). destruct (digits_ok (n / p)) as (E & F & NE).
  assert (P0 : (p <> 0)%N) by (apply N.pow_nonzero; lia).
  rewrite sign_prefix by (apply take_sign_digits; assumption). cbv iota beta. destruct d as [|d'].
  - rewrite (take_digits_ok _ [] F eq_refl). cbv iota beta. rewrite app_nil_r. destruct (digits (n / p)) as [|x ds]; [congruence|]. cbn [parse_exp length Z.of_nat]. rewrite E. unfold p. cbn [N.of_nat]. rewrite N.pow_0_r, N.div_1_r. unfold n. rewrite signed_abs. reflexivity.
  - remember (S d') as d eqn:ED. assert (D0 : (0 < d)%nat) by lia. rewrite (take_digits_ok (digits (n / p))) by (assumption || reflexivity). cbv iota beta. rewrite Ascii.eqb_refl.
    assert (M : (n mod p < 10 ^ N.of_nat d)%N) by (apply N.mod_lt; exact P0). destruct (pad_ok d (n mod p) M D0) as (E2 & F2 & L2).
    rewrite <- (app_nil_r (map char_of (pad_digits d (n mod p)))). rewrite (take_digits_ok _ [] F2 eq_refl). cbv iota beta.
    assert (EN : number (digits (n / p) ++ pad_digits d (n mod p)) = n). { rewrite number_app, E, E2, L2. fold p. rewrite (N.mul_comm (n / p)). symmetry. apply N.div_mod. exact P0. }
    destruct (digits (n / p) ++ pad_digits d (n mod p)) as [|x ds] eqn:EA; [destruct (digits (n / p)); [congruence|discriminate]|]. cbn [parse_exp]. rewrite EN, L2. unfold n. rewrite signed_abs. rewrite Z.sub_0_r. reflexivity.
Qed.
Lemma good_int z : good_word (print_int z).
Proof.
  unfold print_int, print_nat. destruct (digits_ok (Z.abs_N z)) as (_ & F & NE). split.
  - destruct (z <? 0); [discriminate|]. cbn [app]. destruct (digits (Z.abs_N z)); [congruence|discriminate].
  - apply Forall_app. split; [destruct (z <? 0); repeat constructor|apply digits_plain; exact F].
Qed.
Lemma good_fixed d m : good_word (print_fixed d m).
Proof.
  unfold print_fixed, print_nat. cbv zeta. set (n := Z.abs_N m). set (p := (10 ^ N.of_nat d)%N). destruct (digits_ok (n / p)) as (E & F & NE). assert (P0 : (p <> 0)%N) by (apply N.pow_nonzero; lia). split.
  - destruct (digits (n / p)); [congruence|]. destruct (m <? 0); discriminate.
  - apply Forall_app. split; [destruct (m <? 0); repeat constructor|]. apply Forall_app. split; [apply digits_plain; exact F|]. destruct d as [|d']; [constructor|]. constructor; [repeat split|]. apply digits_plain. apply pad_ok; [apply N.mod_lt; exact P0|lia].
Qed.
Lemma count_app c a b : count_char c (a ++ b) = (count_char c a + count_char c b)%nat.
Proof. unfold count_char. rewrite filter_app, app_length. reflexivity. Qed.
Lemma count_digits ds : Forall (fun d => (d < 10)%N) ds -> count_char "."%char (map char_of ds) = 0%nat.
Proof. intros H. induction H as [|d ds Hd H IH]; [reflexivity|]. unfold count_char in *. cbn [map filter]. destruct (char_plain d Hd) as (_ & -> & _). exact IH. Qed.
Lemma count_int z : count_char "."%char (print_int z) = 0%nat.
Proof. unfold print_int, print_nat. rewrite count_app, count_digits by (apply digits_ok). destruct (z <? 0); reflexivity. Qed.
Lemma count_fixed d m : count_char "."%char (print_fixed d m) = match d with O => 0%nat | _ => 1%nat end.
Proof.
  unfold print_fixed, print_nat. cbv zeta. set (n := Z.abs_N m). set (p := (10 ^ N.of_nat d)%N). rewrite !count_app, count_digits by (apply digits_ok). destruct d as [|d']; [destruct (m <? 0); reflexivity|]. change ("."%char :: map char_of (pad_digits (S d') (n mod p))) with (["."%char] ++ map char_of (pad_digits (S d') (n mod p))). rewrite count_app, count_digits by (apply pad_ok; [apply N.mod_lt; apply N.pow_nonzero; lia|lia]). destruct (m <? 0); reflexivity.
Qed.

(* ---- lines and words ---- *)
Lemma lines_from_app l r : Forall (fun c => Ascii.eqb c nl = false) l -> forall cur, lines_from cur (l ++ nl :: r) = (cur ++ l ++ [nl]) :: lines_from [] r.
Proof. intros H. induction H as [|c l Hc H IH]; intros cur; cbn [app lines_from]; [rewrite Ascii.eqb_refl; reflexivity|]. rewrite Hc, IH, <- app_assoc. reflexivity. Qed.
Lemma lines_concat ls : Forall (fun l => Forall (fun c => Ascii.eqb c nl = false) l) ls -> forall r, lines (concat (map (fun l => l ++ [nl]) ls) ++ r) = map (fun l => l ++ [nl]) ls ++ lines r.
Proof.
  intros H. induction H as [|l ls Hl H IH]; intros r; [reflexivity|]. cbn [map concat]. unfold lines in *. rewrite <- !app_assoc. cbn [app]. rewrite lines_from_app by exact Hl. rewrite IH. reflexivity.
Qed.
Lemma words_plain w : Forall plain w -> forall cur r, words_from cur (w ++ r) = words_from (cur ++ w) r.
Proof. intros H. induction H as [|c w (Hc & _) H IH]; intros cur r; [rewrite app_nil_r; reflexivity|]. cbn [app words_from]. rewrite Hc, IH, <- app_assoc. reflexivity. Qed.
Lemma words_join ws : Forall good_word ws -> words (join sp ws ++ [nl]) = ws.
Proof.
  unfold words. induction 1 as [|w ws (N & P) H IH]; [reflexivity|]. destruct ws as [|w' ws'].
  - cbn [join]. rewrite words_plain by exact P. cbn. destruct w; [congruence|reflexivity].
  - remember (w' :: ws') as ws eqn:EW. assert (EJ : join sp (w :: ws) = w ++ sp :: join sp ws) by (subst; reflexivity). rewrite EJ, <- app_assoc. rewrite words_plain by exact P. cbn [app words_from]. replace (is_space sp) with true by reflexivity. rewrite IH. destruct w; [congruence|reflexivity].
Qed.
Lemma join_forall (P : ascii -> Prop) ws : P sp -> Forall (fun w => Forall P w) ws -> Forall P (join sp ws).
Proof.
  intros HS H. induction H as [|w ws Hw H IH]; [constructor|]. destruct ws as [|w' ws']; [exact Hw|]. change (join sp (w :: w' :: ws')) with (w ++ sp :: join sp (w' :: ws')). apply Forall_app. split; [exact Hw|]. constructor; assumption.
Qed.
Lemma before_hash_id l : Forall (fun c => Ascii.eqb c "#"%char = false) l -> before_hash l = l.
Proof. intros H. induction H as [|c l Hc H IH]; [reflexivity|]. cbn. rewrite Hc, IH. reflexivity. Qed.
Lemma count_join c ws : Ascii.eqb c sp = false -> count_char c (join sp ws) = sum_nat (map (count_char c) ws).
Proof.
  intros HS. induction ws as [|w ws IH]; [reflexivity|]. destruct ws as [|w' ws']; [cbn [join map]; unfold sum_nat; cbn [fold_right]; lia|]. change (join sp (w :: w' :: ws')) with (w ++ [sp] ++ join sp (w' :: ws')). rewrite !count_app, IH. assert (E : count_char c [sp] = 0%nat) by (unfold count_char; cbn [filter]; rewrite HS; reflexivity). rewrite E. unfold sum_nat. cbn [map fold_right]. lia.
Qed.

(* ---- rounding ---- *)
Lemma round_even_near y : (Rabs (IZR (round_even y) - y) <= / 2)%R.
Proof.
  unfold round_even. cbv zeta. assert (E : (y = IZR (Int_part y) + frac_part y)%R) by (unfold frac_part; lra). destruct (base_fp y) as (F0 & F1). assert (S1 : forall z, IZR (z + 1) = (IZR z + 1)%R) by (intros; apply plus_IZR).
  destruct (Rltb_spec (frac_part y) (1 / 2)); [apply Rabs_le; lra|]. destruct (Rltb_spec (1 / 2) (frac_part y)); [rewrite S1; apply Rabs_le; lra|]. destruct (Z.even _); rewrite ?S1; apply Rabs_le; lra.
Qed.
Lemma round_even_int k : round_even (IZR k) = k.
Proof.
  pose proof (round_even_near (IZR k)) as H. rewrite <- minus_IZR in H. assert (Z.abs (round_even (IZR k) - k) < 1); [|lia]. apply lt_IZR. rewrite abs_IZR. lra.
Qed.
Lemma fixed_rounds d x : rounds_to d x {| man := fixed d x; exp := Z.of_nat d |}.
Proof.
  assert (P : (0 < 10 ^ d)%R) by (apply pow_lt; lra). assert (V : value {| man := fixed d x; exp := Z.of_nat d |} = (IZR (fixed d x) * / 10 ^ d)%R).
  { unfold value. cbn [man exp]. f_equal. rewrite powerRZ_neg'. rewrite <- pow_powerRZ. reflexivity. }
  unfold rounds_to. rewrite V. split.
  - pose proof (round_even_near (x * 10 ^ d)) as H. fold (fixed d x) in H. replace (IZR (fixed d x) * / 10 ^ d - x)%R with ((IZR (fixed d x) - x * 10 ^ d) * / 10 ^ d)%R by (field; lra). rewrite Rabs_mult. rewrite (Rabs_pos_eq (/ 10 ^ d)) by (left; apply Rinv_0_lt_compat; exact P). apply Rmult_le_compat_r; [left; apply Rinv_0_lt_compat; exact P|exact H].
  - intros k ->. unfold fixed. replace (IZR k * / 10 ^ d * 10 ^ d)%R with (IZR k) by (field; lra). rewrite round_even_int. reflexivity.
Qed.
Lemma fround_small p z : Z.abs z < 2 ^ p -> fround p z = z.
Proof. intros H. unfold fround. destruct (Z.ltb_spec (Z.abs z) (2 ^ p)); [reflexivity|lia]. Qed.
Lemma to_int_int z : to_int {| man := z; exp := 0 |} = z.
Proof. unfold to_int. cbn [exp man]. cbn. apply Z.quot_1_r. Qed.
