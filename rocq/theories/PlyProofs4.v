(* Reading the text records of a PLY file. *)
From Coq Require Import Ascii String ZArith NArith Reals Bool List Permutation Lia.
From Verif Require Import Base RBase Text TextProofs Ply PlySpec PlyProofs PlyProofs2.
Import ListNotations.
Local Open Scope Z_scope.

Definition printable (v : num) : Prop := match v with Whole _ => True | Decimal x => 0 <= exp x | _ => False end.
Definition dec_of (v : num) : dec := match v with Whole z => {| man := z; exp := 0 |} | Decimal x => x | _ => {| man := 0; exp := 0 |} end.
Lemma parse_shown v : printable v -> parse_float (shown v) = Some (dec_of v).
Proof.
  destruct v as [z| | |x]; intros H; try easy; cbn [shown dec_of]; [apply parse_float_int|]. rewrite parse_float_print. cbn in H. rewrite Z2Nat.id by auto. now destruct x.
Qed.
Lemma good_shown v : printable v -> good_word (shown v).
Proof. destruct v as [z| | |x]; intros H; try easy; [apply good_int|apply good_fixed]. Qed.
Lemma fits_printable t v : fits_text t v -> printable v.
Proof. unfold fits_text. destruct (t_kind t), v; easy. Qed.
Lemma typed_back t v : fits_text t v -> typed t (dec_of v) = v.
Proof. unfold fits_text, typed. destruct (t_kind t), v; try easy; intros _; cbn [dec_of]; now rewrite to_int_int. Qed.
Lemma all_decs_shown vs : Forall printable vs -> all_decs (map shown vs) = Some (map dec_of vs).
Proof. induction 1 as [|v vs Hv H IH]; [reflexivity|]. cbn [map all_decs]. now rewrite parse_shown, IH. Qed.
Lemma words_line ws : Forall good_word ws -> words (addnl (join sp ws)) = ws.
Proof. apply words_join. Qed.

(* ---- loadtxt ---- *)
Notation txt_line vs := (addnl (join sp (map shown vs))).
Lemma line_words vs : Forall printable vs -> words (txt_line vs) = map shown vs.
Proof. intros H. apply words_line. apply Forall_map. eapply Forall_impl; [|exact H]. apply good_shown. Qed.
Lemma loadtxt_ok c rest : (0 < c)%nat -> forall rows cols, Forall (fun vs => length vs = c /\ Forall printable vs) rows -> cols = None \/ cols = Some c ->
  loadtxt (map (fun vs => txt_line vs) rows ++ rest) (length rows) cols = Some (map (map dec_of) rows, rest).
Proof.
  intros Hc. induction rows as [|vs rows IH]; intros cols H Hcols; [cbn; destruct rest; reflexivity|]. apply Forall_cons_iff in H as [[Hl Hv] H].
  cbn [map app length loadtxt]. rewrite line_words by auto.
  assert (E : map shown vs <> []) by (destruct vs; cbn in *; [lia|easy]). destruct (map shown vs) as [|w ws] eqn:Ew; [easy|]. rewrite <- Ew.
  assert (EL : S (length ws) = length vs) by (rewrite <- (map_length shown vs), Ew; reflexivity). rewrite EL.
  rewrite Hl. replace (match cols with Some c0 => negb (c =? c0)%nat | None => false end) with false by (destruct Hcols as [-> | ->]; [reflexivity|now rewrite Nat.eqb_refl]).
  rewrite all_decs_shown by auto. rewrite IH by auto. reflexivity.
Qed.
Lemma loadtxt_ragged c rest : (0 < c)%nat -> forall rows cols, Forall (fun vs => (0 < length vs)%nat /\ Forall printable vs) rows -> cols = Some c ->
  ~ Forall (fun vs => length vs = c) rows -> loadtxt (map (fun vs => txt_line vs) rows ++ rest) (length rows) cols = None.
Proof.
  intros Hc. induction rows as [|vs rows IH]; intros cols H -> Hr; [elim Hr; constructor|]. apply Forall_cons_iff in H as [[Hl Hv] H].
  cbn [map app length loadtxt]. rewrite line_words by auto.
  assert (E : map shown vs <> []) by (destruct vs; cbn in *; [lia|easy]). destruct (map shown vs) as [|w ws] eqn:Ew; [easy|]. rewrite <- Ew.
  assert (EL : S (length ws) = length vs) by (rewrite <- (map_length shown vs), Ew; reflexivity). rewrite EL.
  destruct (Nat.eqb_spec (length vs) c) as [El|El]; cbn [negb]; [|reflexivity].
  rewrite all_decs_shown by auto. rewrite (IH (Some (length vs))); auto; try congruence. all: intros HF; apply Hr; constructor; auto.
Qed.
Lemma loadtxt_ragged0 vs rows rest : Forall (fun vs => (0 < length vs)%nat /\ Forall printable vs) (vs :: rows) -> ~ Forall (fun ws => length ws = length vs) rows ->
  loadtxt (map (fun vs => txt_line vs) (vs :: rows) ++ rest) (length (vs :: rows)) None = None.
Proof.
  intros H Hr. apply Forall_cons_iff in H as [[Hl Hv] H]. cbn [map app length loadtxt]. rewrite line_words by auto.
  assert (E : map shown vs <> []) by (destruct vs; cbn in *; [lia|easy]). destruct (map shown vs) as [|w ws] eqn:Ew; [easy|]. rewrite <- Ew.
  assert (EL : S (length ws) = length vs) by (rewrite <- (map_length shown vs), Ew; reflexivity). rewrite EL.
  rewrite all_decs_shown by auto. rewrite (loadtxt_ragged (length vs)); auto.
Qed.

(* ---- no lists ---- *)
Lemma split_rows_ok : forall rs nums, Forall (fun r => Forall2 fits_text (expand rs) r) nums -> split_rows rs (map (map dec_of) nums) = split_nums rs nums.
Proof.
  induction rs as [|[t n] rs IH]; intros nums H; [reflexivity|]. cbn [split_rows split_nums].
  assert (Ee : expand ((t, n) :: rs) = repeat t n ++ expand rs) by reflexivity. rewrite Ee in *.
  assert (Hrow : forall r, In r nums -> exists r1 r2, r = r1 ++ r2 /\ length r1 = n /\ Forall (fits_text t) r1 /\ Forall2 fits_text (expand rs) r2).
  { intros r Hr. rewrite Forall_forall in H. specialize (H r Hr). apply Forall2_app_inv_l in H as (r1 & r2 & H1 & H2 & ->).
    exists r1, r2. split; auto. assert (L : length r1 = n) by (rewrite <- (Base.Forall2_length _ _ _ H1); apply repeat_length). split; auto. split; auto.
    clear - H1 L. revert n L H1. induction r1 as [|x r1 IH]; intros n L H1; [constructor|]. destruct n as [|n]; [easy|]. cbn in H1. inversion H1; subst. constructor; auto. apply (IH n); auto. }
  f_equal.
  - rewrite map_map. apply map_ext_in. intros r Hr. destruct (Hrow r Hr) as (r1 & r2 & -> & L & F1 & F2).
    rewrite firstn_map, firstn_app, L, Nat.sub_diag, firstn_O, app_nil_r, <- L, firstn_all, map_map. rewrite <- (map_id r1) at 2. apply map_ext_in.
    intros v Hv. apply typed_back. rewrite Forall_forall in F1. now apply F1.
  - rewrite map_map. rewrite <- (IH (map (skipn n) nums)).
    + rewrite map_map. f_equal. apply map_ext_in. intros r Hr. now rewrite skipn_map.
    + apply Forall_map, Forall_forall. intros r Hr. destruct (Hrow r Hr) as (r1 & r2 & -> & L & F1 & F2). rewrite skipn_app, L, Nat.sub_diag, <- L, skipn_all. exact F2.
Qed.
Lemma fixed_row_text ps row : Forall (fun p => p_list p = None) ps -> Forall2 datum_fits_text ps row ->
  Forall2 fits_text (map p_type ps) (map one_of row) /\ concat (map shown_datum row) = map shown (map one_of row).
Proof.
  intros Hl H. induction H as [|p d ps row Hd H IH]; [split; [constructor|reflexivity]|]. apply Forall_cons_iff in Hl as [Hp Hl].
  destruct (IH Hl) as [I1 I2]. unfold datum_fits_text in Hd. rewrite Hp in Hd. destruct d as [v|]; [|easy]. split.
  - cbn. constructor; auto.
  - cbn [map concat shown_datum one_of app]. now rewrite I2.
Qed.
Lemma f2_printable ts vs : Forall2 fits_text ts vs -> Forall printable vs.
Proof. induction 1; constructor; auto. eapply fits_printable; eauto. Qed.
Lemma read_nolist_text e rows rest : e_props e <> [] -> Forall (fun p => p_list p = None) (e_props e) -> rows <> [] -> Forall (fun row => Forall2 datum_fits_text (e_props e) row) rows ->
  read_nolist_ascii e (length rows) (map addnl (map shown_row rows) ++ rest) = Ok (map (map dec_of) (map (map one_of) rows), rest).
Proof.
  intros H0 Hl Hn H. unfold read_nolist_ascii.
  assert (Hc : (0 < length (e_props e))%nat) by (destruct (e_props e); cbn; [easy|lia]).
  assert (Hr : Forall (fun vs => length vs = length (e_props e) /\ Forall printable vs) (map (map one_of) rows)).
  { apply Forall_map. eapply Forall_impl; [|exact H]. intros row Hr. destruct (fixed_row_text _ _ Hl Hr) as [F1 _]. split; [|now apply f2_printable in F1].
    rewrite map_length. symmetry. exact (Base.Forall2_length _ _ _ Hr). }
  assert (E : map addnl (map shown_row rows) = map (fun vs => txt_line vs) (map (map one_of) rows)).
  { rewrite !map_map. apply map_ext_in. intros row Hi. unfold shown_row. rewrite Forall_forall in H. destruct (fixed_row_text _ _ Hl (H row Hi)) as [_ ->]. reflexivity. }
  rewrite E. replace (length rows) with (length (map (map one_of) rows)) at 1 by apply map_length.
  rewrite (loadtxt_ok (length (e_props e)) rest Hc); auto.
  assert (Ew : width (map (map dec_of) (map (map one_of) rows)) = length (e_props e)).
  { destruct rows as [|row rows]; [easy|]. cbn [map width]. rewrite map_length. apply Forall_cons_iff in Hr as [[Hr _] _]. exact Hr. }
  rewrite Ew, !map_length, !Nat.eqb_refl. reflexivity.
Qed.

(* ---- lists ---- *)
Lemma int_not_float t : In t standard_types -> t_kind t <> Floating -> text_eqb (t_name t) (str "double") || text_eqb (t_name t) (str "float") = false.
Proof. intros H Hk. cbn in H. repeat (destruct H as [<-|H]; [try reflexivity; cbn in Hk; congruence|]). easy. Qed.
Lemma take_items_ok t : forall vs ws, Forall (fits_text t) vs -> take_items t (length vs) (map shown vs ++ ws) = Ok (vs, ws).
Proof.
  induction vs as [|v vs IH]; intros ws H; [reflexivity|]. apply Forall_cons_iff in H as [Hv H]. cbn [length map app take_items].
  rewrite parse_shown by (eapply fits_printable; eauto). rewrite IH by auto. cbn [rbind fst snd]. now rewrite typed_back.
Qed.
Definition readable (p : prop) : Prop := p_list p = None -> t_kind (p_type p) = Floating -> t_name (p_type p) = str "float" \/ t_name (p_type p) = str "double".
Lemma parse_word_ok p d ws : prop_ok p -> readable p -> datum_fits_text p d -> parse_word p (shown_datum d ++ ws) = Ok (d, ws).
Proof.
  intros [H1 _] Hr H. unfold parse_word, datum_fits_text in *. destruct (p_list p) as [s|] eqn:El, d as [v|vs]; try easy; cbn [shown_datum app].
  - destruct H as [_ H]. rewrite parse_int_print. destruct (Z.ltb_spec (Z.of_nat (length vs)) 0); [lia|]. rewrite Nat2Z.id, take_items_ok by auto. reflexivity.
  - destruct (t_kind (p_type p)) eqn:Ek.
    + rewrite int_not_float by (auto; congruence). unfold fits_text in H. rewrite Ek in H. destruct v; try easy. cbn [shown]. now rewrite parse_int_print.
    + rewrite int_not_float by (auto; congruence). unfold fits_text in H. rewrite Ek in H. destruct v; try easy. cbn [shown]. now rewrite parse_int_print.
    + assert (E : text_eqb (t_name (p_type p)) (str "double") || text_eqb (t_name (p_type p)) (str "float") = true).
      { destruct (Hr El Ek) as [-> | ->]; reflexivity. }
      rewrite E. rewrite parse_shown by (eapply fits_printable; eauto). unfold fits_text in H. rewrite Ek in H. destruct v; easy.
Qed.
Lemma parse_words_ok ps row : Forall prop_ok ps -> Forall readable ps -> Forall2 datum_fits_text ps row -> parse_words ps (concat (map shown_datum row)) = Ok row.
Proof.
  intros Hp Hr H. induction H as [|p d ps row Hd H IH]; [reflexivity|]. apply Forall_cons_iff in Hp as [Hp Hps]. apply Forall_cons_iff in Hr as [Hr Hrs].
  cbn [map concat parse_words]. rewrite parse_word_ok by auto. cbn [rbind fst snd]. now rewrite IH.
Qed.
Lemma row_words ps row : Forall2 datum_fits_text ps row -> Forall good_word (concat (map shown_datum row)).
Proof.
  induction 1 as [|p d ps row Hd H IH]; [constructor|]. cbn [map concat]. apply Forall_app. split; auto. unfold datum_fits_text in Hd.
  destruct (p_list p), d as [v|vs]; try easy; cbn [shown_datum].
  - destruct Hd as [_ Hd]. constructor; [apply good_int|]. apply Forall_map. eapply Forall_impl; [|exact Hd]. intros v Hv. apply good_shown. eapply fits_printable; eauto.
  - constructor; [|constructor]. apply good_shown. eapply fits_printable; eauto.
Qed.
Lemma read_lines_ok ps rest : Forall prop_ok ps -> Forall readable ps -> forall rows, Forall (fun row => Forall2 datum_fits_text ps row) rows ->
  read_lines ps (length rows) (map addnl (map shown_row rows) ++ rest) = Ok (rows, rest).
Proof.
  intros Hp Hr. induction 1 as [|row rows Hrow H IH]; [reflexivity|]. cbn [map app length read_lines]. unfold shown_row at 1.
  rewrite words_line by (eapply row_words; eauto). rewrite parse_words_ok by auto. cbn [rbind]. rewrite IH. reflexivity.
Qed.
Lemma read_ascii_ok e rows rest : Forall prop_ok (e_props e) -> e_props e <> [] -> e_count e = Z.of_nat (length rows) -> decimals_readable e ->
  Forall (fun row => Forall2 datum_fits_text (e_props e) row) rows ->
  read_ascii e (map addnl (map shown_row rows) ++ rest) = Ok (expected e rows, rest).
Proof.
  intros Hp H0 Hc Hread H. unfold read_ascii. rewrite Hc.
  assert (Hne : rows = [] \/ rows <> []) by (destruct rows; [now left|now right]).
  destruct Hne as [->|Hne]; [reflexivity|].
  assert (Hn : Z.of_nat (length rows) <> 0) by (clear - Hne; destruct rows; cbn; [easy|lia]).
  apply Z.eqb_neq in Hn. rewrite Hn. assert (Hn' : (Z.of_nat (length rows) <? 0) = false) by (apply Z.ltb_ge; lia). rewrite Hn', Nat2Z.id.
  assert (Hex : expected e rows = if is_constant_type e then Parts [map (map one_of) rows]
         else if is_fixed e then Parts (split_nums (runs (map p_type (e_props e))) (map (map one_of) rows))
         else match single_list e with
              | Some _ => if uniform (map list_of rows) then Array (map list_of rows) else Rows rows
              | None => Rows rows
              end) by (clear - Hne; destruct rows; [easy|reflexivity]). rewrite Hex. clear Hex.
  destruct (is_constant_type e) eqn:Ec.
  - unfold is_constant_type in Ec. apply andb_prop in Ec as [Ef Ec]. apply is_fixed_iff in Ef.
    rewrite read_nolist_text by auto. cbn [rbind fst snd]. destruct (e_props e) as [|p ps] eqn:Ep; [easy|]. rewrite forallb_forall in Ec. do 4 f_equal.
    rewrite map_map. rewrite <- (map_id (map (map one_of) rows)) at 2. apply map_ext_in. intros r Hr. apply in_map_iff in Hr as (row & <- & Hr).
    rewrite Forall_forall in H. destruct (fixed_row_text _ _ Ef (H row Hr)) as [F1 _]. clear H.
    assert (Ets : forall t, In t (map p_type (p :: ps)) -> t_kind t = t_kind (p_type p)).
    { intros t Ht. apply in_map_iff in Ht as (q & <- & Hq). apply type_eqb_iff. now apply Ec. }
    revert F1 Ets. generalize (map p_type (p :: ps)) (map one_of row). clear. induction 1 as [|t v ts vs Hv F IH]; intros Ets; [reflexivity|].
    cbn [map]. rewrite IH by (intros; apply Ets; now right). f_equal. rewrite <- (typed_back t v Hv) at 2. unfold typed. now rewrite (Ets t (or_introl eq_refl)).
  - destruct (is_fixed e) eqn:Ef.
    + apply is_fixed_iff in Ef. rewrite read_nolist_text by auto. cbn [rbind fst snd].
      assert (Hts : Forall (fun t => In t standard_types) (map p_type (e_props e))).
      { apply Forall_map. eapply Forall_impl; [|exact Hp]. now intros q []. }
      rewrite split_rows_ok; [reflexivity|]. rewrite expand_runs by auto. apply Forall_map. eapply Forall_impl; [|exact H]. intros row Hr. apply (fixed_row_text _ _ Ef Hr).
    + assert (Hrd : Forall readable (e_props e)). { destruct Hread as [Hx|Hx]; [apply is_fixed_iff in Hx; congruence|exact Hx]. }
      assert (Hgen : (r <- read_lines (e_props e) (length rows) (map addnl (map shown_row rows) ++ rest) ;; Ok (match fst r with [] => Nothing | rows => Rows rows end, snd r)) = Ok (Rows rows, rest)).
      { rewrite read_lines_ok by auto. cbn [rbind fst snd]. clear - Hne. destruct rows; [easy|reflexivity]. }
      destruct (single_list e) as [[s t]|] eqn:Es; [|cbn [rbind]; exact Hgen].
      unfold single_list in Es. destruct (e_props e) as [|p [|? ?]] eqn:Ep; try easy. destruct (p_list p) as [s'|] eqn:El; [|easy]. injection Es as -> <-.
      assert (Hrow : forall row, In row rows -> exists vs, row = [Many vs] /\ Forall (fits_text (p_type p)) vs).
      { intros row Hr. rewrite Forall_forall in H. specialize (H row Hr). inversion H as [|? d ? l' Hd HN]; subst. inversion HN; subst. unfold datum_fits_text in Hd. rewrite El in Hd.
        destruct d as [|vs]; [easy|]. exists vs. split; auto. apply Hd. }
      set (full := fun vs : list num => Whole (Z.of_nat (length vs)) :: vs).
      assert (E : map addnl (map shown_row rows) = map (fun vs => txt_line vs) (map full (map list_of rows))).
      { rewrite !map_map. apply map_ext_in. intros row Hi. destruct (Hrow row Hi) as (vs & -> & _). unfold shown_row. cbn [map concat shown_datum list_of]. now rewrite app_nil_r. }
      assert (HF : Forall (fun vs => Forall (fits_text (p_type p)) vs) (map list_of rows)).
      { apply Forall_map, Forall_forall. intros row Hr. destruct (Hrow row Hr) as (vs & -> & Hv). exact Hv. }
      assert (HP : Forall (fun vs => (0 < length vs)%nat /\ Forall printable vs) (map full (map list_of rows))).
      { apply Forall_map. eapply Forall_impl; [|exact HF]. intros vs Hv. split; [cbn; lia|]. constructor; [exact I|]. eapply Forall_impl; [|exact Hv]. apply fits_printable. }
      assert (TC : try_constant_ascii (p_type p) (length rows) (map addnl (map shown_row rows) ++ rest) = Ok (if uniform (map list_of rows) then Some (map list_of rows, rest) else None)).
      { unfold try_constant_ascii. rewrite E. replace (length rows) with (length (map full (map list_of rows))) at 1 by (now rewrite !map_length).
        destruct (map list_of rows) as [|vs vss] eqn:Em. { destruct rows; easy. } cbn [uniform]. destruct (same_len (length vs) vss) eqn:Esl.
        - assert (Hall : Forall (fun ws => length ws = length vs) (vs :: vss)).
          { constructor; auto. unfold same_len in Esl. rewrite forallb_forall in Esl. apply Forall_forall. intros ws Hws. apply Nat.eqb_eq. now apply Esl. }
          rewrite (loadtxt_ok (S (length vs)) rest); auto; [|lia|].
          2: { apply Forall_forall. intros ws Hws. rewrite Forall_forall in HP. split; [|now apply HP]. apply in_map_iff in Hws as (u & <- & Hu). cbn. rewrite Forall_forall in Hall. now rewrite (Hall u Hu). }
          assert (Ew : width (map (map dec_of) (map full (vs :: vss))) = S (length vs)) by (cbn; now rewrite map_length). rewrite Ew.
          assert (Ex : existsb (fun r => match r with x :: _ => negb (same_number (p_type p) x (Z.of_nat (S (length vs)) - 1)) | [] => true end) (map (map dec_of) (map full (vs :: vss))) = false).
          { destruct (existsb _ _) eqn:X; auto. apply existsb_exists in X as (r & A & B). rewrite map_map in A. apply in_map_iff in A as (u & <- & Hu). unfold full in B. cbn [map dec_of] in B.
            rewrite Forall_forall in Hall. rewrite (Hall u Hu) in B. replace (Z.of_nat (S (length vs)) - 1) with (Z.of_nat (length vs)) in B by lia.
            apply negb_true_iff in B. unfold same_number, is_int_at in B. cbn [exp man] in B. rewrite to_int_int in B.
            change (0 <=? 0) with true in B. cbv iota in B. change (10 ^ 0) with 1 in B. rewrite Z.mul_1_r, Z.eqb_refl in B. destruct (t_kind (p_type p)); discriminate. }
          rewrite Ex. rewrite map_length. replace (length (map full (vs :: vss))) with (length rows) by (rewrite <- Em, !map_length; reflexivity). rewrite Nat.eqb_refl. cbn [negb]. do 3 f_equal.
          rewrite !map_map. rewrite <- (map_id (vs :: vss)) at 2. apply map_ext_in. intros u Hu. unfold full. cbn [map skipn]. rewrite map_map. rewrite <- (map_id u) at 2. apply map_ext_in.
          intros v Hv. apply typed_back. rewrite Forall_forall in HF. specialize (HF u Hu). rewrite Forall_forall in HF. now apply HF.
        - change (map full (vs :: vss)) with (full vs :: map full vss) in *. rewrite loadtxt_ragged0; auto. intros HA. assert (X : same_len (length vs) vss = true); [|congruence]. unfold same_len. apply forallb_forall. intros u Hu.
          rewrite Forall_forall in HA. specialize (HA (full u) (in_map full _ _ Hu)). cbn in HA. apply Nat.eqb_eq. lia. }
      rewrite TC. cbn [rbind]. destruct (uniform (map list_of rows)); [reflexivity|exact Hgen].
Qed.
Lemma elements_ascii_ok : forall es extra acc, Forall (good_element datum_fits_text) es -> Forall (fun er => decimals_readable (fst er)) es ->
  elements_ascii (map fst es) (map addnl (concat (map (fun er => map shown_row (snd er)) es)) ++ extra) acc =
  if blank (concat extra) then Ok (rev (map (fun er => (e_name (fst er), expected (fst er) (snd er))) es) ++ acc) else Fail EValue.
Proof.
  induction es as [|[e rows] es IH]; intros extra acc H Hr; [reflexivity|].
  apply Forall_cons_iff in H as [(G1 & G2 & G3 & G4 & G5 & G6) H]. apply Forall_cons_iff in Hr as [Hr Hrs]. cbn [fst snd] in *. cbn [map concat fst snd elements_ascii].
  rewrite map_app, <- app_assoc, read_ascii_ok; auto. 2: { eapply Forall_impl; [|exact G5]. intros p (_ & P2 & P3). split; auto. }
  cbn [rbind fst snd]. rewrite IH by auto. cbn [rev]. now rewrite <- app_assoc.
Qed.
