(* Text rows with more words than the header announces. *)
From Coq Require Import Ascii String ZArith NArith Reals Bool List Permutation Lia Lra.
From Verif Require Import Base RBase Text TextSpec TextProofs Ply PlySpec PlyProofs PlyProofs2 PlyProofs3 PlyProofs4 PlyProofs5.
Import ListNotations.
Local Open Scope list_scope.
Local Open Scope Z_scope.

Lemma elements_prefix : forall es more ls acc, Forall (good_element datum_fits_text) es -> Forall (fun er => decimals_readable (fst er)) es ->
  elements_ascii (map fst es ++ more) (map addnl (concat (map (fun er => map shown_row (snd er)) es)) ++ ls) acc =
  elements_ascii more ls (rev (map (fun er => (e_name (fst er), expected (fst er) (snd er))) es) ++ acc).
Proof.
  induction es as [|[e rows] es IH]; intros more ls acc H Hr; [reflexivity|].
  apply Forall_cons_iff in H as [(G1 & G2 & G3 & G4 & G5 & G6) H]. apply Forall_cons_iff in Hr as [Hr Hrs]. cbn [fst snd] in *. cbn [map app concat fst snd elements_ascii].
  rewrite map_app, <- app_assoc, read_ascii_ok; auto. 2: { eapply Forall_impl; [|exact G5]. intros p (_ & P2 & P3). split; auto. }
  cbn [rbind fst snd]. rewrite IH by auto. cbn [rev]. now rewrite <- app_assoc.
Qed.
Lemma parse_words_extra ps row extra : Forall prop_ok ps -> Forall readable ps -> Forall2 datum_fits_text ps row -> extra <> [] ->
  parse_words ps (concat (map shown_datum row) ++ extra) = Fail EValue.
Proof.
  intros Hp Hr H He. induction H as [|p d ps row Hd H IH]; [destruct extra; [easy|reflexivity]|]. apply Forall_cons_iff in Hp as [Hp Hps]. apply Forall_cons_iff in Hr as [Hr Hrs].
  cbn [map concat parse_words]. rewrite <- app_assoc, parse_word_ok by auto. cbn [rbind fst snd]. now rewrite IH.
Qed.
Lemma read_lines_extra ps row extra rest : Forall prop_ok ps -> Forall readable ps -> Forall2 datum_fits_text ps row -> extra <> [] -> Forall good_word extra ->
  forall rows n, Forall (fun row => Forall2 datum_fits_text ps row) rows -> (length rows < n)%nat ->
  read_lines ps n (map addnl (map shown_row rows) ++ addnl (join sp (concat (map shown_datum row) ++ extra)) :: rest) = Fail EValue.
Proof.
  intros Hp Hr Hrow He Hw. induction rows as [|r rows IH]; intros n H Hn.
  - destruct n; [cbn in Hn; lia|]. cbn [map app read_lines]. rewrite words_line by (apply Forall_app; split; [eapply row_words; eauto|exact Hw]).
    now rewrite parse_words_extra.
  - destruct n; [cbn in Hn; lia|]. apply Forall_cons_iff in H as [H1 H]. cbn [map app read_lines]. unfold shown_row at 1.
    rewrite words_line by (eapply row_words; eauto). rewrite parse_words_ok by auto. cbn [rbind]. rewrite IH by (auto; cbn in Hn; lia). reflexivity.
Qed.
Lemma load_text_extra host es e before row after more extra rest fuel :
  good_content datum_fits_text (es ++ (e, before ++ row :: after) :: more) ->
  Forall (fun er => decimals_readable (fst er)) (es ++ (e, before ++ row :: after) :: more) ->
  (header_length (es ++ (e, before ++ row :: after) :: more) <= fuel)%nat ->
  (2 <= length (e_props e))%nat -> ~ Forall (fun p => p_list p = None) (e_props e) -> extra <> [] -> Forall good_word extra ->
  load_ply_data host fuel
    (unlines (the_header FAscii (map fst (es ++ (e, before ++ row :: after) :: more))) ++
     unlines (concat (map (fun er => map shown_row (snd er)) es) ++ map shown_row before ++ [join sp (concat (map shown_datum row) ++ extra)]) ++ rest) =
  Some (Fail EValue).
Proof.
  intros (G0 & G1 & G2) Hd Hf H2 Hl He Hw. unfold load_ply_data.
  rewrite read_file; [|destruct es; easy|eapply good_heads; eauto|rewrite header_length_eq; auto].
  apply Forall_app in G2 as [Ge G2]. apply Forall_cons_iff in G2 as [Gx Gm]. apply Forall_app in Hd as [De Hd]. apply Forall_cons_iff in Hd as [Dx _].
  destruct Gx as (X1 & X2 & X3 & X4 & X5 & X6). cbn [fst snd] in *.
  assert (Hp : Forall prop_ok (e_props e)) by (eapply Forall_impl; [|exact X5]; intros p (_ & P2 & P3); split; auto).
  assert (Hr : Forall readable (e_props e)) by (destruct Dx as [Dx|Dx]; [contradiction|exact Dx]).
  apply Forall_app in X6 as [Xb X6]. apply Forall_cons_iff in X6 as [Xr _].
  cbn [read_elements]. rewrite unlines_no_nl.
  2: { apply Forall_app. split.
       - apply Forall_concat, Forall_map. eapply Forall_impl; [|exact Ge]. intros [e' rows] (H1' & H2' & H3' & H4' & H5' & H6'). cbn [fst snd] in *. apply Forall_map.
         eapply Forall_impl; [|exact H6']. intros r Hr'. unfold shown_row. apply join_forall; [reflexivity|]. apply row_words in Hr'. eapply Forall_impl; [|exact Hr']. apply good_word_no_nl.
       - apply Forall_app. split.
         + apply Forall_map. eapply Forall_impl; [|exact Xb]. intros r Hr'. unfold shown_row. apply join_forall; [reflexivity|]. apply row_words in Hr'. eapply Forall_impl; [|exact Hr']. apply good_word_no_nl.
         + constructor; [|constructor]. apply join_forall; [reflexivity|]. apply Forall_app. split; [|eapply Forall_impl; [|exact Hw]; apply good_word_no_nl].
           apply row_words in Xr. eapply Forall_impl; [|exact Xr]. apply good_word_no_nl. }
  rewrite map_app. cbn [map fst]. rewrite !map_app, <- !app_assoc. rewrite elements_prefix by auto. cbn [elements_ascii].
  assert (RA : read_ascii e (map addnl (map shown_row before) ++ map addnl [join sp (concat (map shown_datum row) ++ extra)] ++ lines rest) = Fail EValue).
  { unfold read_ascii. rewrite X2, app_length. cbn [length]. destruct (Z.eqb_spec (Z.of_nat (length before + S (length after))) 0) as [Z0|_]; [lia|].
    assert (Hfx : is_fixed e = false).
    { destruct (is_fixed e) eqn:E; [|reflexivity]. exfalso. apply Hl. unfold is_fixed in E. rewrite forallb_forall in E. apply Forall_forall. intros p Hi. specialize (E p Hi). now destruct (p_list p). }
    assert (Hct : is_constant_type e = false) by (unfold is_constant_type; rewrite Hfx; reflexivity). rewrite Hct, Hfx.
    assert (Hsl : single_list e = None) by (unfold single_list; destruct (e_props e) as [|p [|q l]]; cbn in H2; [reflexivity|lia|reflexivity]). rewrite Hsl. cbn [rbind map app].
    rewrite read_lines_extra; auto. rewrite Nat2Z.id. lia. }
  rewrite RA. reflexivity.
Qed.
