(* Reading the header of a PLY file. *)
From Coq Require Import Ascii String ZArith NArith Reals Bool List Permutation Lia.
From Verif Require Import Base RBase Text TextProofs Ply PlySpec.
Import ListNotations.
Local Open Scope Z_scope.

Lemma text_eqb_eq a b : text_eqb a b = true <-> a = b.
Proof. unfold text_eqb. destruct (list_eq_dec ascii_dec a b); split; congruence. Qed.
Lemma text_eqb_refl a : text_eqb a a = true.
Proof. now apply text_eqb_eq. Qed.
Lemma text_eqb_neq a b : a <> b -> text_eqb a b = false.
Proof. intros H. destruct (text_eqb a b) eqn:E; auto. now apply text_eqb_eq in E. Qed.
Notation okc := (fun c => str_space c = false /\ (nat_of_ascii c < 128)%nat).

(* ---- splitting and stripping ---- *)
Lemma sp_space : str_space sp = true.
Proof. reflexivity. Qed.
Lemma nl_space : str_space nl = true.
Proof. reflexivity. Qed.
Lemma not_sp c : str_space c = false -> Ascii.eqb c sp = false.
Proof. intros H. destruct (Ascii.eqb_spec c sp); auto. subst. discriminate. Qed.
Lemma not_nl c : str_space c = false -> Ascii.eqb c nl = false.
Proof. intros H. destruct (Ascii.eqb_spec c nl); auto. subst. discriminate. Qed.
Lemma split_word w : Forall okc w -> forall cur r, split_from cur (w ++ r) = split_from (cur ++ w) r.
Proof.
  induction 1 as [|c w Hc Hw IH]; intros cur r; cbn; [now rewrite app_nil_r|].
  rewrite (not_sp c) by apply Hc. rewrite IH, <- app_assoc. reflexivity.
Qed.
Lemma split_join ws : ws <> [] -> Forall (Forall okc) ws -> split_sp (join sp ws) = ws.
Proof.
  intros H0 H. unfold split_sp. induction ws as [|w ws IH]; [easy|]. apply Forall_cons_iff in H as [Hw H].
  destruct ws as [|w' ws].
  - cbn [join]. rewrite <- (app_nil_r w) at 1. rewrite split_word by auto. reflexivity.
  - change (join sp (w :: w' :: ws)) with (w ++ sp :: join sp (w' :: ws)). rewrite split_word by auto. cbn [split_from app].
    change (Ascii.eqb sp sp) with true. cbv iota. f_equal. apply IH; easy.
Qed.
Lemma drop_hd p c l : p c = false -> drop_while p (c :: l) = c :: l.
Proof. intros H. cbn. now rewrite H. Qed.
Lemma strip_line a l b : str_space a = false -> str_space b = false -> strip str_space (a :: l ++ [b; nl]) = a :: l ++ [b].
Proof.
  intros Ha Hb. unfold strip. rewrite drop_hd by auto.
  replace (a :: l ++ [b; nl]) with (((a :: l) ++ [b]) ++ [nl]) by (cbn; now rewrite <- app_assoc).
  rewrite !rev_app_distr. cbn [rev app drop_while]. rewrite nl_space, Hb. cbn [rev]. rewrite rev_app_distr. cbn [rev app]. now rewrite rev_involutive.
Qed.
Lemma strip_one a : str_space a = false -> strip str_space [a; nl] = [a].
Proof. intros Ha. unfold strip. rewrite drop_hd by auto. cbn [rev app drop_while]. rewrite nl_space, Ha. reflexivity. Qed.
Lemma join_last ws : Forall word_ok ws -> ws <> [] -> exists l b, join sp ws = l ++ [b] /\ str_space b = false.
Proof.
  intros H H0. induction H as [|w ws Hw Hws IH]; [easy|]. destruct ws as [|w' ws].
  - cbn. destruct Hw as [H1 H2]. destruct (exists_last H1) as (l & b & ->). exists l, b. split; auto. apply Forall_app in H2 as [_ H2].
    apply Forall_cons_iff in H2. apply H2.
  - destruct IH as (l & b & E & Hb); [easy|]. exists (w ++ sp :: l), b. split; auto.
    change (join sp (w :: w' :: ws)) with (w ++ sp :: join sp (w' :: ws)). rewrite E, <- app_assoc. reflexivity.
Qed.
Lemma join_first ws : Forall word_ok ws -> ws <> [] -> exists a l, join sp ws = a :: l /\ str_space a = false.
Proof.
  intros H H0. destruct H as [|w ws Hw Hws]; [easy|]. destruct Hw as [H1 H2]. destruct w as [|a w]; [easy|].
  apply Forall_cons_iff in H2 as [[H2 _] _]. destruct ws; cbn; eauto.
Qed.
Lemma strip_join ws : Forall word_ok ws -> ws <> [] -> strip str_space (join sp ws ++ [nl]) = join sp ws.
Proof.
  intros H H0. destruct (join_first ws H H0) as (a & l & E & Ha). destruct (join_last ws H H0) as (l' & b & E' & Hb).
  destruct l' as [|a' l'].
  - rewrite E'. cbn [app]. now apply strip_one.
  - rewrite E'. rewrite E' in E. cbn [app] in E. injection E as -> _. cbn [app].
    replace ((l' ++ [b]) ++ [nl]) with (l' ++ [b; nl]) by (now rewrite <- app_assoc). now apply strip_line.
Qed.
Lemma ascii_join ws : Forall word_ok ws -> is_ascii (join sp ws ++ [nl]) = true.
Proof.
  intros H. unfold is_ascii. rewrite forallb_app. apply andb_true_intro. split; [|reflexivity]. apply forallb_forall. rewrite <- Forall_forall.
  apply (join_forall (fun c => (nat_of_ascii c <? 128)%nat = true)); [reflexivity|]. eapply Forall_impl; [|exact H].
  intros w [_ Hw]. eapply Forall_impl; [|exact Hw]. intros c [_ Hc]. now apply Nat.ltb_lt.
Qed.
Lemma no_nl_join ws : Forall word_ok ws -> Forall (fun c => Ascii.eqb c nl = false) (join sp ws).
Proof.
  intros H. apply join_forall; [reflexivity|]. eapply Forall_impl; [|exact H].
  intros w [_ Hw]. eapply Forall_impl; [|exact Hw]. cbn. intros c [Hc _]. now apply not_nl.
Qed.
Lemma word_ok_okc ws : Forall word_ok ws -> Forall (Forall okc) ws.
Proof. apply Forall_impl. now intros w []. Qed.

(* ---- the words of the header ---- *)
Lemma types_eq : standard_types = ply_types.
Proof. reflexivity. Qed.
Lemma type_word t : In t standard_types -> word_ok (t_name t).
Proof.
  intros H. assert (Hall : Forall (fun t => word_ok (t_name t)) standard_types).
  { repeat constructor; cbn; try discriminate; lia. }
  rewrite Forall_forall in Hall. now apply Hall.
Qed.
Lemma find_type_ok t : In t standard_types -> find_type (t_name t) = Some t.
Proof. intros H. cbn in H. repeat (destruct H as [<-|H]; [reflexivity|]). easy. Qed.
Lemma type_not_list t : In t standard_types -> text_eqb (t_name t) (str "list") = false.
Proof. intros H. cbn in H. repeat (destruct H as [<-|H]; [reflexivity|]). easy. Qed.
Definition words_of_property (p : prop) : list text :=
  [str "property"] ++ match p_list p with Some s => [str "list"; t_name s] | None => [] end ++ [t_name (p_type p); p_name p].
Lemma property_line_join p : property_line p = join sp (words_of_property p).
Proof. unfold property_line, words_of_property. destruct (p_list p) as [s|]; cbn; rewrite <- ?app_assoc; reflexivity. Qed.
Lemma lit_ok s : (str s <> []) -> forallb (fun c => negb (str_space c) && (nat_of_ascii c <? 128)%nat) (str s) = true -> word_ok (str s).
Proof.
  intros H H'. split; auto. rewrite forallb_forall in H'. apply Forall_forall. intros c Hc. specialize (H' c Hc). cbv beta in H'.
  apply andb_prop in H' as [A B]. apply negb_true_iff in A. apply Nat.ltb_lt in B. auto.
Qed.
Lemma property_words p : good_property p -> Forall word_ok (words_of_property p).
Proof.
  intros (H1 & H2 & H3). unfold words_of_property. rewrite !Forall_app. split; [|split].
  - constructor; [|constructor]. apply lit_ok; [discriminate|reflexivity].
  - destruct (p_list p); constructor; [apply lit_ok; [discriminate|reflexivity]|]. constructor; [|constructor]. now apply type_word.
  - constructor; [now apply type_word|]. constructor; auto.
Qed.
Definition words_of_element (e : element) : list text := [str "element"; e_name e; print_int (e_count e)].
Lemma char_ok d : (d < 10)%N -> okc (char_of d).
Proof.
  intros H. assert (Hn : (N.to_nat d < 10)%nat) by lia. unfold char_of. remember (N.to_nat d) as n. clear - Hn.
  do 10 (destruct n as [|n]; [split; [reflexivity|cbn; lia]|]). lia.
Qed.
Lemma print_ok z : word_ok (print_int z).
Proof.
  unfold print_int, print_nat. destruct (digits_ok (Z.abs_N z)) as (_ & H & H0). split.
  - intros E. apply app_eq_nil in E as [_ E]. now apply map_eq_nil in E.
  - apply Forall_app. split; [destruct (z <? 0); repeat constructor; cbn; lia|]. apply Forall_map. eapply Forall_impl; [|exact H]. intros d. apply char_ok.
Qed.
Lemma element_line_join e : str "element " ++ e_name e ++ [sp] ++ print_int (e_count e) = join sp (words_of_element e).
Proof. cbn. reflexivity. Qed.
Lemma element_words e : word_ok (e_name e) -> Forall word_ok (words_of_element e).
Proof. intros H. repeat (constructor; auto using print_ok). 1: discriminate. all: cbn; lia. Qed.

(* ---- steps ---- *)
Lemma step_property f e es p : good_property p -> ~ In (p_name p) (map p_name (e_props e)) ->
  header_step (HS (Some f) (e :: es)) (property_line p) = Ok (inl (HS (Some f) (El (e_name e) (e_count e) (e_props e ++ [p]) :: es))).
Proof.
  intros H Hn. unfold header_step. cbn [seen].
  assert (Ex : existsb (fun q => text_eqb (p_name q) (p_name p)) (e_props e) = false).
  { destruct (existsb _ _) eqn:X; auto. apply existsb_exists in X as (q & Hq & Hq'). apply text_eqb_eq in Hq'. elim Hn. rewrite <- Hq'. now apply in_map. }
  assert (Hp : parse_property (HS (Some f) (e :: es)) (property_line p) = Ok (HS (Some f) (El (e_name e) (e_count e) (e_props e ++ [p]) :: es))).
  { unfold parse_property. rewrite property_line_join, split_join;
      [|unfold words_of_property; discriminate|apply word_ok_okc; now apply property_words].
    destruct H as (H1 & H2 & H3). destruct p as [name t l]. cbn [p_list p_type p_name] in *. unfold words_of_property. cbn [p_list p_type p_name els]. destruct l as [s|]; cbn [app].
    - change (text_eqb (str "list") (str "list")) with true. cbv iota. rewrite (find_type_ok s), (find_type_ok t) by auto. now rewrite Ex.
    - rewrite type_not_list, (find_type_ok t) by auto. now rewrite Ex. }
  unfold property_line at 1 2 3 4 5 6 7. rewrite Hp. reflexivity.
Qed.
Lemma step_element f es e : word_ok (e_name e) -> no_props (HS (Some f) es) = false ->
  header_step (HS (Some f) es) (str "element " ++ e_name e ++ [sp] ++ print_int (e_count e)) = Ok (inl (HS (Some f) (El (e_name e) (e_count e) [] :: es))).
Proof.
  intros H H0. unfold header_step. cbn [seen].
  assert (Hp : parse_element (HS (Some f) es) (str "element " ++ e_name e ++ [sp] ++ print_int (e_count e)) = Ok (HS (Some f) (El (e_name e) (e_count e) [] :: es))).
  { unfold parse_element. rewrite H0, element_line_join, split_join; [|discriminate|apply word_ok_okc; now apply element_words].
    cbn [words_of_element]. now rewrite parse_int_print. }
  rewrite Hp. reflexivity.
Qed.
Definition addnl (l : text) : text := l ++ [nl].
Lemma loop_step fuel st ws ls : Forall word_ok ws -> ws <> [] ->
  header_loop (S fuel) st (addnl (join sp ws) :: ls) =
  match header_step st (join sp ws) with Fail e => Some (Fail e) | Ok (inr (f, es)) => Some (Ok (f, es, ls)) | Ok (inl st) => header_loop fuel st ls end.
Proof.
  intros H H0. cbn [header_loop]. unfold addnl. rewrite ascii_join by auto. cbn [negb]. now rewrite strip_join.
Qed.
Lemma loop_props f n c es rest fuel : forall ps done, Forall good_property ps -> NoDup (map p_name (done ++ ps)) ->
  header_loop (length ps + fuel) (HS (Some f) (El n c done :: es)) (map addnl (map property_line ps) ++ rest) =
  header_loop fuel (HS (Some f) (El n c (done ++ ps) :: es)) rest.
Proof.
  induction ps as [|p ps IH]; intros done Hg Hd; [cbn; now rewrite app_nil_r|]. apply Forall_cons_iff in Hg as [Hp Hg].
  cbn [map app length Nat.add]. rewrite property_line_join, loop_step; [|now apply property_words|unfold words_of_property; discriminate].
  rewrite <- property_line_join, step_property; auto.
  - cbn [e_name e_count e_props]. rewrite IH; auto; rewrite <- app_assoc; auto.
  - cbn [e_props]. rewrite map_app in Hd. cbn [map] in Hd. apply NoDup_remove_2 in Hd. intros Hi. apply Hd, in_app_iff. now left.
Qed.
Definition good_head (e : element) : Prop := word_ok (e_name e) /\ e_props e <> [] /\ NoDup (map p_name (e_props e)) /\ Forall good_property (e_props e).
Lemma loop_elements f rest fuel : forall es done, Forall good_head es -> no_props (HS (Some f) done) = false ->
  header_loop (sum_nat (map (fun e => S (length (e_props e))) es) + fuel) (HS (Some f) done) (map addnl (concat (map element_lines es)) ++ rest) =
  header_loop fuel (HS (Some f) (rev es ++ done)) rest.
Proof.
  induction es as [|e es IH]; intros done Hg H0; [reflexivity|]. apply Forall_cons_iff in Hg as [(H1 & H2 & H3 & H4) Hg].
  change (sum_nat (map (fun e => S (length (e_props e))) (e :: es)) + fuel)%nat with (S (length (e_props e) + sum_nat (map (fun e => S (length (e_props e))) es) + fuel)).
  change (concat (map element_lines (e :: es))) with (element_lines e ++ concat (map element_lines es)). unfold element_lines at 1.
  rewrite <- app_comm_cons. cbn [map]. rewrite <- app_comm_cons. rewrite element_line_join, loop_step; [|now apply element_words|discriminate].
  rewrite <- element_line_join, step_element by auto. rewrite map_app, <- app_assoc, <- Nat.add_assoc, loop_props by auto. cbn [app].
  destruct e as [n c ps]. cbn [e_name e_count e_props] in *. rewrite IH; auto.
  - cbn [rev]. now rewrite <- app_assoc.
  - unfold no_props. cbn. destruct ps; easy.
Qed.
Lemma format_line_words f : exists ws, format_line f = join sp ws /\ Forall word_ok ws /\ ws <> [].
Proof.
  destruct f as [|[|]].
  - exists [str "format"; str "ascii"; str "1.0"]. split; [reflexivity|]. split; [|discriminate]. repeat (constructor; [apply lit_ok; [discriminate|reflexivity]|]). constructor.
  - exists [str "format"; str "binary_big_endian"; str "1.0"]. split; [reflexivity|]. split; [|discriminate]. repeat (constructor; [apply lit_ok; [discriminate|reflexivity]|]). constructor.
  - exists [str "format"; str "binary_little_endian"; str "1.0"]. split; [reflexivity|]. split; [|discriminate]. repeat (constructor; [apply lit_ok; [discriminate|reflexivity]|]). constructor.
Qed.
Lemma step_format f : header_step (HS None []) (format_line f) = Ok (inl (HS (Some f) [])).
Proof. destruct f as [|[|]]; reflexivity. Qed.
Lemma fuel_more ls : forall fuel st r more, header_loop fuel st ls = Some r -> header_loop (fuel + more) st ls = Some r.
Proof.
  intros fuel. revert ls. induction fuel as [|fuel IH]; intros ls st r more H; [easy|]. cbn [Nat.add header_loop] in *.
  destruct ls as [|l ls]; cbv iota in *.
  - destruct (negb _); auto. destruct (header_step _ _) as [[st'|[f es]]|e]; auto.
  - destruct (negb _); auto. destruct (header_step _ _) as [[st'|[f es]]|e]; auto.
Qed.
Lemma header_ok f es rest fuel : es <> [] -> Forall good_head es ->
  (sum_nat (map (fun e => S (length (e_props e))) es) + 2 <= fuel)%nat ->
  read_header fuel (map addnl (the_header f es) ++ rest) = Some (Ok (f, es, rest)).
Proof.
  intros H0 H Hf. unfold the_header. cbn [map app read_header]. change (text_eqb (addnl (str "ply")) (str "ply" ++ [nl])) with true. cbn [orb].
  replace fuel with (S (sum_nat (map (fun e => S (length (e_props e))) es) + 1) + (fuel - (sum_nat (map (fun e => S (length (e_props e))) es) + 2)))%nat by lia.
  apply fuel_more. destruct (format_line_words f) as (ws & E & Hw & Hn). rewrite E, loop_step, <- E, step_format by auto.
  rewrite map_app, <- app_assoc, loop_elements by auto. rewrite app_nil_r.
  change ([str "end_header"]) with ([join sp [str "end_header"]]). cbn [map app]. rewrite loop_step.
  - unfold header_step. change (text_eqb (join sp [str "end_header"]) (str "end_header")) with true. cbv iota. cbn [els seen].
    assert (Hl : no_props (HS (Some f) (rev es)) = false).
    { unfold no_props. cbn [els]. destruct (rev es) as [|e l] eqn:Er; auto. assert (Hi : In e es) by (apply in_rev; rewrite Er; now left).
      rewrite Forall_forall in H. destruct (H e Hi) as (_ & H2 & _). destruct (e_props e); easy. }
    rewrite Hl, rev_involutive. destruct (rev es) eqn:Er; [|reflexivity]. apply (f_equal (@rev _)) in Er. rewrite rev_involutive in Er. easy.
  - constructor; [|constructor]. apply lit_ok; [discriminate|reflexivity].
  - discriminate.
Qed.
Lemma header_no_nl f es : Forall good_head es -> Forall (fun l => Forall (fun c => Ascii.eqb c nl = false) l) (the_header f es).
Proof.
  intros H. unfold the_header. constructor; [repeat constructor|]. constructor.
  { destruct (format_line_words f) as (ws & -> & Hw & _). now apply no_nl_join. }
  apply Forall_app. split; [|constructor; [repeat constructor|constructor]].
  apply Forall_concat, Forall_map. eapply Forall_impl; [|exact H]. intros e (H1 & H2 & H3 & H4). unfold element_lines. constructor.
  - rewrite element_line_join. apply no_nl_join. now apply element_words.
  - apply Forall_map. eapply Forall_impl; [|exact H4]. intros p Hp. rewrite property_line_join. apply no_nl_join. now apply property_words.
Qed.
Lemma concat_lines l : concat (lines l) = l.
Proof.
  unfold lines. assert (H : forall l cur, concat (lines_from cur l) = cur ++ l).
  { clear. induction l as [|c l IH]; intros cur; cbn [lines_from].
    - destruct cur; cbn; now rewrite ?app_nil_r.
    - destruct (Ascii.eqb c nl); cbn [concat]; rewrite IH, <- app_assoc; reflexivity. }
  apply H.
Qed.
Lemma read_file f es data fuel : es <> [] -> Forall good_head es ->
  (sum_nat (map (fun e => S (length (e_props e))) es) + 2 <= fuel)%nat ->
  read_header fuel (lines (unlines (the_header f es) ++ data)) = Some (Ok (f, es, lines data)).
Proof. intros H0 H Hf. unfold unlines. rewrite lines_concat by now apply header_no_nl. now apply header_ok. Qed.
