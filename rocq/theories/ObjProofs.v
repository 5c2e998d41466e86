(* Reading: words, lines, faces. *)
From Coq Require Import Ascii String ZArith Reals Bool List Lia.
From Verif Require Import Base RBase Text TextSpec TextProofs Ply PlyProofs PlyProofs5 Obj ObjSpec.
Import ListNotations.
Local Open Scope list_scope.
Local Open Scope Z_scope.

Notation blanks b := (Forall (fun c => str_space c = true) b).
(* ---- words ---- *)
Lemma toks_word w : Forall (fun c => str_space c = false) w -> forall cur r, toks_from cur (w ++ r) = toks_from (cur ++ w) r.
Proof. induction 1 as [|c w Hc H IH]; intros cur r; cbn; [now rewrite app_nil_r|]. rewrite Hc, IH, <- app_assoc. reflexivity. Qed.
Lemma toks_blanks b r : blanks b -> forall cur, cur = [] -> toks_from cur (b ++ r) = toks_from [] r.
Proof. intros H. induction H as [|c b Hc H IH]; intros cur ->; cbn; [reflexivity|]. rewrite Hc. cbn. now apply IH. Qed.
Lemma toks_blanks_end b : blanks b -> toks_from [] b = [].
Proof. intros H. rewrite <- (app_nil_r b). now rewrite toks_blanks. Qed.
Lemma toks_after b : blanks b -> forall cur l, toks_from cur (l ++ b) = toks_from cur l.
Proof.
  intros Hb cur l. revert cur. induction l as [|c l IH]; intros cur; cbn.
  - destruct Hb as [|c b Hc Hb]; cbn; [reflexivity|]. rewrite Hc, toks_blanks_end by auto. now rewrite app_nil_r.
  - destruct (str_space c); now rewrite IH.
Qed.
Lemma spaced_toks ws l : spaced ws l -> toks l = ws.
Proof.
  unfold toks. induction 1 as [b Hb|b w ws l Hb [Hw0 Hw] Hl H IH]; [now apply toks_blanks_end|].
  rewrite toks_blanks by auto. rewrite toks_word by auto. cbn [app]. destruct l as [|c l].
  - cbn in IH |- *. subst ws. destruct w; [easy|reflexivity].
  - cbn in IH |- *. rewrite Hl in *. cbn [flush app] in IH. rewrite IH. destruct w; [easy|reflexivity].
Qed.
Lemma drop_spec p l : exists a, l = a ++ drop_while p l /\ Forall (fun c => p c = true) a.
Proof. apply drop_split. Qed.
Lemma toks_strip l : toks (strip str_space l) = toks l.
Proof.
  unfold strip. destruct (drop_spec str_space l) as (a & E & Ha). destruct (drop_spec str_space (rev (drop_while str_space l))) as (b & E' & Hb).
  apply (f_equal (@rev _)) in E'. rewrite rev_involutive, rev_app_distr in E'. unfold toks. rewrite E at 2. rewrite toks_blanks by auto. rewrite E' at 2. rewrite toks_after; [reflexivity|]. now apply Forall_rev.
Qed.
Lemma spaced_nonblank ws r : ws <> [] -> spaced ws r -> exists x c y, r = x ++ c :: y /\ str_space c = false.
Proof. intros H S. destruct S as [b Hb|b w ws l Hb [Hw0 Hw] Hl S]; [easy|]. destruct w as [|c w]; [easy|]. apply Forall_cons_iff in Hw as [Hc _]. exists b, c, (w ++ l). auto. Qed.
Lemma strip_blanks b l : blanks b -> strip str_space (b ++ l) = strip str_space l.
Proof. intros H. unfold strip. do 3 f_equal. induction H as [|c b Hc H IH]; cbn; [reflexivity|]. now rewrite Hc. Qed.
Lemma drop_snoc p x c y : p c = false -> exists z, drop_while p (rev (x ++ c :: y) ++ [sp]) = z ++ [sp] /\ True.
Proof.
  intros Hc. rewrite rev_app_distr. cbn [rev]. rewrite <- !app_assoc. cbn [app]. rewrite drop_app by exact Hc. exists (drop_while p (rev y) ++ c :: rev x). split; auto. now rewrite <- app_assoc.
Qed.
Lemma keyword_strip k ws l : keyword_line k ws l -> ws <> [] -> word (str k) -> (exists r, strip str_space l = str k ++ sp :: r) /\ toks (strip str_space l) = str k :: ws.
Proof.
  intros (b & r & -> & Hb & Hs) Hne [Hk0 Hk]. rewrite strip_blanks by auto. split.
  - destruct (spaced_nonblank ws r Hne Hs) as (x & c & y & -> & Hc).
    rewrite strip_keeps.
    + cbn [rev]. destruct (drop_snoc str_space x c y Hc) as (z & -> & _). exists (rev z). now rewrite rev_app_distr.
    + auto.
    + destruct (str k) as [|a w]; [easy|]. now apply Forall_cons_iff in Hk.
    + destruct (str k) as [|a w] eqn:E; [easy|]. apply Forall_rev in Hk. destruct (rev (a :: w)) as [|z q] eqn:Er; [apply (f_equal (@length _)) in Er; rewrite rev_length in Er; easy|]. now apply Forall_cons_iff in Hk.
  - rewrite toks_strip. unfold toks. rewrite toks_word by auto. cbn [app toks_from]. change (str_space sp) with true. cbv iota. apply spaced_toks in Hs. unfold toks in Hs. rewrite Hs. destruct (str k); [easy|reflexivity].
Qed.
Lemma starts_word k l : word (str k) -> starts (k ++ " ") l = true -> exists ws, toks l = str k :: ws.
Proof.
  intros [Hk0 Hk] H. unfold starts in H. apply text_eqb_eq in H.
  assert (E : str (k ++ " ") = str k ++ [sp]). { clear. induction k as [|c k IH]; [reflexivity|]. cbn. f_equal. exact IH. }
  rewrite E in H. pose proof (firstn_skipn (length (str k ++ [sp])) l) as F. rewrite H in F. rewrite <- F, <- app_assoc. unfold toks. rewrite toks_word by auto. cbn [app toks_from]. change (str_space sp) with true. cbv iota.
  destruct (str k) as [|a w]; [easy|]. cbn [flush app]. eauto.
Qed.
Lemma starts_mtllib l : str_space (hd nl l) = false -> starts "mtllib" l = true -> exists w ws, toks l = w :: ws /\ firstn 6 w = str "mtllib".
Proof.
  intros Hh H. unfold starts in H. apply text_eqb_eq in H. change (length (str "mtllib")) with 6%nat in H.
  pose proof (firstn_skipn 6 l) as F. rewrite H in F. rewrite <- F. unfold toks. rewrite (toks_word (str "mtllib")) by repeat constructor. cbn [app]. generalize (skipn 6 l). clear.
  intros r. assert (G : forall r cur, cur <> [] -> exists x ws, toks_from cur r = (cur ++ x) :: ws).
  { clear. induction r as [|c r IH]; intros cur Hc; cbn.
    - exists [], []. rewrite app_nil_r. destruct cur; [easy|reflexivity].
    - destruct (str_space c).
      + exists []. rewrite app_nil_r. destruct cur; [easy|]. cbn. eauto.
      + destruct (IH (cur ++ [c])) as (x & ws & ->); [now destruct cur|]. exists (c :: x), ws. now rewrite <- app_assoc. }
  destruct (G r (str "mtllib")) as (x & ws & ->); [easy|]. exists (str "mtllib" ++ x), ws. split; reflexivity.
Qed.

(* ---- corners and faces ---- *)
Notation unslashed w := (Forall (fun c => Ascii.eqb c slash = false) w).
Lemma slash_word w : unslashed w -> forall cur r, slash_from cur (w ++ r) = slash_from (cur ++ w) r.
Proof. induction 1 as [|c w Hc H IH]; intros cur r; cbn; [now rewrite app_nil_r|]. rewrite Hc, IH, <- app_assoc. reflexivity. Qed.
Lemma int_unslashed z : unslashed (print_int z).
Proof.
  unfold print_int, print_nat. apply Forall_app. split; [destruct (z <? 0); repeat constructor|]. destruct (digits_ok (Z.abs_N z)) as (_ & H & _). apply Forall_map. eapply Forall_impl; [|exact H]. intros d Hd. apply char_plain in Hd. apply Hd.
Qed.
Lemma int_nonempty z : print_int z <> [].
Proof. apply good_int. Qed.
Lemma int_print z : int_of (print_int z) = Ok z.
Proof. unfold int_of. now rewrite parse_int_print. Qed.
Lemma slash_end z cur : slash_from cur (print_int z) = [cur ++ print_int z].
Proof. rewrite <- (app_nil_r (print_int z)) at 1. now rewrite slash_word by apply int_unslashed. Qed.
Lemma corner_ok c : corner_of (slashes (show_corner c)) = Ok (c_vert c, c_tex c, c_norm c).
Proof.
  destruct c as [v t n]. unfold show_corner, slashes. cbn [c_vert c_tex c_norm]. destruct t as [t|], n as [n|].
  - rewrite slash_word by apply int_unslashed. cbn [app slash_from]. change (Ascii.eqb slash slash) with true. cbv iota. rewrite slash_word by apply int_unslashed. cbn [app slash_from]. change (Ascii.eqb slash slash) with true. cbv iota.
    rewrite slash_end. cbn [app corner_of]. rewrite !int_print. cbn [rbind]. pose proof (int_nonempty t). destruct (print_int t); [easy|reflexivity].
  - rewrite slash_word by apply int_unslashed. cbn [app slash_from]. change (Ascii.eqb slash slash) with true. cbv iota. rewrite slash_end. cbn [app corner_of]. rewrite !int_print. cbn [rbind].
    pose proof (int_nonempty t). destruct (print_int t); [easy|reflexivity].
  - rewrite slash_word by apply int_unslashed. cbn [app slash_from]. change (Ascii.eqb slash slash) with true. cbv iota. rewrite slash_end. cbn [app corner_of]. rewrite !int_print. reflexivity.
  - rewrite app_nil_r, slash_end. cbn [app corner_of]. now rewrite int_print.
Qed.
Lemma rmap_all {A B} (f : A -> result B) (g : A -> B) l : (forall a, In a l -> f a = Ok (g a)) -> rmap f l = Ok (map g l).
Proof. induction l as [|a l IH]; intros H; [reflexivity|]. cbn. rewrite (H a (or_introl eq_refl)). cbn. rewrite IH by (intros; apply H; now right). reflexivity. Qed.
Lemma fan_map {A B} (f : A -> B) l : fan (map f l) = map (map f) (fan l).
Proof.
  destruct l as [|a l]; [reflexivity|]. cbn [fan map]. rewrite map_map. replace (tl (map f l)) with (map f (tl l)) by (destruct l; reflexivity).
  generalize (tl l). intros l2. revert l2. induction l as [|x l IH]; intros [|y l2]; cbn; try reflexivity. now rewrite IH.
Qed.
Lemma nth_S {A} (a : A) l n : nth_error (a :: l) (S n) = nth_error l n.
Proof. reflexivity. Qed.
Lemma split_face_fan l : split_face l = Ok (fan l).
Proof.
  unfold split_face. destruct l as [|a [|b l]]; [reflexivity|reflexivity|].
  assert (G : forall (a : Z) l k pre, rmap (fun i => a0 <- rget (a :: pre ++ l) 0 ;; b <- rget (a :: pre ++ l) (i + 1) ;; c <- rget (a :: pre ++ l) (i + 2) ;; Ok [a0; b; c]) (seq (length pre) k) = Ok (map (fun bc => [a; fst bc; snd bc]) (combine l (tl l))) \/ k <> (length l - 1)%nat).
  { clear. intros a l k. revert l. induction k as [|k IH]; intros l pre.
    - destruct l as [|x [|y l]]; [now left|now left|right; cbn; lia].
    - destruct l as [|x [|y l]]; [right; cbn; lia|right; cbn; lia|]. cbn [seq rmap]. 
      assert (E0 : rget (a :: pre ++ x :: y :: l) 0 = Ok a) by reflexivity.
      assert (E1 : rget (a :: pre ++ x :: y :: l) (length pre + 1) = Ok x). { unfold rget. replace (length pre + 1)%nat with (S (length pre)) by lia. rewrite nth_S, nth_error_app2, Nat.sub_diag by lia. reflexivity. }
      assert (E2 : rget (a :: pre ++ x :: y :: l) (length pre + 2) = Ok y). { unfold rget. replace (length pre + 2)%nat with (S (S (length pre))) by lia. rewrite nth_S, nth_error_app2 by lia. replace (S (length pre) - length pre)%nat with 1%nat by lia. reflexivity. }
      destruct (IH (y :: l) (pre ++ [x])) as [E|E]; [|right; cbn in E |- *; lia]. left. rewrite app_length in E. cbn [length] in E. replace (length pre + 1)%nat with (S (length pre)) in E by lia.
      rewrite <- app_assoc in E. cbn [app] in E. rewrite E, E0, E1, E2. reflexivity. }
  destruct (G a (b :: l) (length (a :: b :: l) - 2)%nat []) as [E|E]; [exact E|]. cbn in E. lia.
Qed.
Lemma somes_all {A} (p : corner -> option A) (d : A) cs : (forall c, In c cs -> p c <> None) -> somes (map p cs) = map (fun c => match p c with Some x => x | None => d end) cs.
Proof. induction cs as [|c cs IH]; intros H; [reflexivity|]. unfold somes in *. cbn. rewrite IH by (intros; apply H; now right). specialize (H c (or_introl eq_refl)). destruct (p c); [reflexivity|easy]. Qed.
Lemma somes_none {A} (p : corner -> option A) cs : (forall c, In c cs -> p c = None) -> somes (map p cs) = [].
Proof. induction cs as [|c cs IH]; intros H; [reflexivity|]. unfold somes in *. cbn. rewrite IH by (intros; apply H; now right). now rewrite (H c (or_introl eq_refl)). Qed.
Definition or_pad (p : corner -> option Z) (c : corner) : Z := match p c with Some x => x | None => -1 end.
Lemma fill_ok p cs : cs <> [] -> uniform p cs -> fill (length cs) (somes (map p cs)) = Ok (map (or_pad p) cs).
Proof.
  intros Hne [H|H].
  - rewrite (somes_all p (-1)) by auto. unfold fill. destruct (map _ cs) eqn:E; [destruct cs; easy|]. rewrite <- E, map_length, Nat.eqb_refl. reflexivity.
  - rewrite somes_none by auto. cbn. f_equal. clear Hne. induction cs as [|c cs IH]; [reflexivity|]. cbn. rewrite IH by (intros; apply H; now right). unfold or_pad. now rewrite (H c (or_introl eq_refl)).
Qed.
Lemma somes_length {A} (p : corner -> option A) cs : (length (somes (map p cs)) <= length cs)%nat /\ (length (somes (map p cs)) = length cs -> forall c, In c cs -> p c <> None).
Proof.
  induction cs as [|c cs [IH1 IH2]]; [split; [auto|intros _ c []]|]. unfold somes in *. cbn. destruct (p c) eqn:E; cbn.
  - split; [lia|]. intros H c' [<-|Hc]; [congruence|]. apply IH2; auto.
  - split; [lia|]. intros H. lia.
Qed.
Lemma somes_empty {A} (p : corner -> option A) cs : somes (map p cs) = [] -> forall c, In c cs -> p c = None.
Proof. induction cs as [|c cs IH]; intros H c' Hc; [easy|]. unfold somes in *. cbn in H. apply app_eq_nil in H as [H1 H2]. destruct Hc as [<-|Hc]; [destruct (p c); easy|]. now apply IH. Qed.
Lemma fill_mixed p cs : ~ uniform p cs -> fill (length cs) (somes (map p cs)) = Fail EValue.
Proof.
  intros H. unfold fill. destruct (somes (map p cs)) as [|x l] eqn:E; [exfalso; apply H; right; now apply somes_empty|].
  destruct (Nat.eqb_spec (length (x :: l)) (length cs)) as [C|C]; [|reflexivity]. exfalso. apply H. left. apply (somes_length p cs). now rewrite E.
Qed.
Lemma parse_corners cs : rmap (fun w => corner_of (slashes w)) (map show_corner cs) = Ok (map (fun c => (c_vert c, c_tex c, c_norm c)) cs).
Proof. induction cs as [|c cs IH]; [reflexivity|]. cbn. rewrite corner_ok. cbn. now rewrite IH. Qed.
Lemma parse_face_ok cs : cs <> [] -> uniform c_tex cs -> uniform c_norm cs ->
  parse_face (map show_corner cs) = Ok (map (map c_vert) (fan cs), map (map (or_pad c_norm)) (fan cs), map (map (or_pad c_tex)) (fan cs)).
Proof.
  intros Hne Ht Hn. unfold parse_face. rewrite parse_corners. cbn [rbind]. rewrite !map_map. cbn [fst snd]. rewrite map_length.
  rewrite fill_ok by auto. cbn [rbind]. rewrite fill_ok by auto. cbn [rbind]. rewrite !split_face_fan. cbn [rbind]. now rewrite !fan_map.
Qed.
Lemma parse_face_mixed cs : ~ (uniform c_tex cs /\ uniform c_norm cs) -> (forall p : corner -> option Z, uniform p cs \/ ~ uniform p cs) -> parse_face (map show_corner cs) = Fail EValue.
Proof.
  intros H Hd. unfold parse_face. rewrite parse_corners. cbn [rbind]. rewrite !map_map. cbn [fst snd]. rewrite map_length.
  destruct (Hd c_norm) as [Hn|Hn]; [|now rewrite fill_mixed]. destruct (Hd c_tex) as [Ht|Ht]; [tauto|].
  destruct (fill (length cs) (somes (map (fun x => c_norm x) cs))) as [n|e] eqn:E.
  - cbn [rbind]. rewrite fill_mixed by auto. reflexivity.
  - cbn [rbind]. unfold fill in E. destruct (somes _); [easy|]. destruct (_ =? _)%nat; [easy|]. now injection E as <-.
Qed.
Lemma uniform_dec (p : corner -> option Z) cs : uniform p cs \/ ~ uniform p cs.
Proof.
  destruct (somes (map p cs)) as [|x l] eqn:E; [left; right; now apply somes_empty|].
  destruct (Nat.eq_dec (length (somes (map p cs))) (length cs)) as [C|C]; [left; left; now apply (somes_length p cs)|]. right. intros [H|H].
  - apply C. rewrite (somes_all p (-1)) by auto. now rewrite map_length.
  - rewrite somes_none in E by auto. discriminate.
Qed.
