From Coq Require Import Ascii String ZArith NArith Reals Bool Lia Lra List Permutation.
From Verif Require Import Base RBase Text TextSpec TextProofs Off OffSpec.
Import ListNotations.
Local Open Scope Z_scope.

(* ---- printed lines ---- *)
Lemma join_plain ws : List.Forall good_word ws -> List.Forall (fun c => Ascii.eqb c nl = false /\ Ascii.eqb c "#"%char = false) (join sp ws).
Proof. intros H. apply join_forall; [split; reflexivity|]. eapply Forall_impl; [|exact H]. intros w (_ & P). eapply Forall_impl; [|exact P]. intros c (_ & A & B). split; assumption. Qed.
Lemma line_words ws : List.Forall good_word ws -> words (before_hash (line_of ws)) = ws.
Proof.
  intros H. unfold line_of. rewrite before_hash_id; [apply words_join; exact H|]. apply Forall_app. split; [|repeat constructor]. eapply Forall_impl; [|apply join_plain; exact H]. intros c (_ & E). exact E.
Qed.
Lemma line_header ws : List.Forall good_word ws -> words (line_of ws) = ws.
Proof. intros H. apply words_join. exact H. Qed.
Lemma line_not_empty w ws : List.Forall good_word (w :: ws) -> line_empty (line_of (w :: ws)) = false.
Proof.
  intros H. inversion H as [|? ? (N & P) H']; subst. unfold line_empty, line_of. assert (E : exists c t, join sp (w :: ws) ++ [nl] = c :: t /\ plain c).
  { destruct w as [|c w]; [congruence|]. inversion P; subst. destruct ws as [|t ws]; [exists c, (w ++ [nl])|exists c, ((w ++ sp :: join sp (t :: ws)) ++ [nl])]; (split; [reflexivity|assumption]). }
  destruct E as (c & t & -> & (A & B & _)). cbn [lstrip]. rewrite A. exact B.
Qed.
Lemma count_line w ws rest : List.Forall good_word (w :: ws) -> count_periods (line_of (w :: ws) :: rest) = Ok (sum_nat (map (count_char "."%char) (w :: ws))).
Proof.
  intros H. cbn [count_periods]. rewrite (line_not_empty w ws H). f_equal. unfold line_of. rewrite before_hash_id; [|apply Forall_app; split; [|repeat constructor]; eapply Forall_impl; [|apply join_plain; exact H]; intros c (_ & E); exact E].
  rewrite count_app, count_join by reflexivity. unfold count_char at 2. cbn. lia.
Qed.
Definition reads (ws : list text) (row : list dec) : Prop := List.Forall good_word ws /\ all_numbers ws = Some row.
Lemma numbers_length ws : forall row, all_numbers ws = Some row -> length row = length ws.
Proof. induction ws as [|w ws IH]; intros row E; cbn in E; [injection E as <-; reflexivity|]. destruct (parse_float w); [|discriminate]. destruct (all_numbers ws) as [r|]; [|discriminate]. injection E as <-. cbn. f_equal. apply IH. reflexivity. Qed.
Lemma loadtxt_ok c W D : (0 < c)%nat -> Forall2 reads W D -> List.Forall (fun ws => length ws = c) W -> forall cols rest, (cols = None \/ cols = Some c) -> loadtxt (map line_of W ++ rest) (length W) cols = inl (D, rest).
Proof.
  intros Hc H. induction H as [|ws row W D (G & E) H IH]; intros HL cols rest HC; [destruct rest; reflexivity|]. inversion HL as [|? ? L1 L2]; subst. cbn [map app length loadtxt]. rewrite (line_words ws G). destruct ws as [|w ws]; [cbn in Hc; lia|].
  destruct HC as [-> | ->]; cbn [length]; rewrite ?Nat.eqb_refl; cbn [negb]; rewrite E; rewrite IH by (try exact L2; right; reflexivity); reflexivity.
Qed.
Lemma numbers_app a b x y : all_numbers a = Some x -> all_numbers b = Some y -> all_numbers (a ++ b) = Some (x ++ y).
Proof. revert x. induction a as [|w a IH]; intros x E1 E2; cbn in *; [injection E1 as <-; exact E2|]. destruct (parse_float w); [|discriminate]. destruct (all_numbers a); [|discriminate]. injection E1 as <-. rewrite (IH l eq_refl E2). reflexivity. Qed.
Definition as_dec (d : nat) (x : R) : dec := {| man := fixed d x; exp := Z.of_nat d |}.
Definition int_dec (z : Z) : dec := {| man := z; exp := 0 |}.
Lemma numbers_reals d r : all_numbers (map (print_real d) r) = Some (map (as_dec d) r).
Proof. induction r as [|x r IH]; [reflexivity|]. cbn [map all_numbers]. unfold print_real at 1. rewrite parse_float_print, IH. reflexivity. Qed.
Lemma numbers_ints f : all_numbers (map print_int f) = Some (map int_dec f).
Proof. induction f as [|x f IH]; [reflexivity|]. cbn [map all_numbers]. rewrite parse_float_int, IH. reflexivity. Qed.
Lemma good_reals d r : List.Forall good_word (map (print_real d) r).
Proof. apply Forall_map, Forall_forall. intros x _. apply good_fixed. Qed.
Lemma good_ints f : List.Forall good_word (map print_int f).
Proof. apply Forall_map, Forall_forall. intros x _. apply good_int. Qed.
Lemma reads_reals d r : reads (map (print_real d) r) (map (as_dec d) r).
Proof. split; [apply good_reals|apply numbers_reals]. Qed.
Lemma rounded d r : Forall2 (rounds_to d) r (map (as_dec d) r).
Proof. induction r; constructor; [apply fixed_rounds|assumption]. Qed.
Lemma rounded_all d rows : rounded_rows d rows (map (map (as_dec d)) rows).
Proof. induction rows; constructor; [apply rounded|assumption]. Qed.
Lemma three_good : good_word (str "3").
Proof. split; [discriminate|]. repeat constructor. Qed.
Lemma three_parse : parse_float (str "3") = Some (int_dec 3).
Proof. reflexivity. Qed.
Lemma lines_of_lines Ws : List.Forall (List.Forall good_word) Ws -> forall r, lines (concat (map line_of Ws) ++ r) = map line_of Ws ++ lines r.
Proof.
  intros H r. pose proof (lines_concat (map (join sp) Ws)) as L. rewrite !map_map in L. apply L. apply Forall_map. eapply Forall_impl; [|exact H]. intros ws G. eapply Forall_impl; [|apply join_plain; exact G]. intros c (E & _). exact E.
Qed.
Lemma count_reals d r : sum_nat (map (count_char "."%char) (map (print_real d) r)) = match d with O => 0%nat | _ => length r end.
Proof.
  induction r as [|x r IH]; [destruct d; reflexivity|]. cbn [map]. unfold sum_nat in *. cbn [fold_right]. rewrite IH. unfold print_real. rewrite count_fixed. destruct d; [reflexivity|cbn; lia].
Qed.
Lemma count_ints f : sum_nat (map (count_char "."%char) (map print_int f)) = 0%nat.
Proof. induction f as [|x f IH]; [reflexivity|]. cbn [map]. unfold sum_nat in *. cbn [fold_right]. rewrite IH, count_int. reflexivity. Qed.

(* ---- the head of a written file ---- *)
Lemma drop_off_line : drop_off (str "off" ++ [nl]) = [nl] /\ drop_off (str "OFF" ++ [nl]) = [nl].
Proof. split; reflexivity. Qed.
Lemma load_head nv nf Ws fuel name : name = "off"%string \/ name = "OFF"%string -> List.Forall (List.Forall good_word) Ws -> (2 <= fuel)%nat ->
  load_off_stream fuel (str name ++ [nl] ++ line_of [print_int nv; print_int nf; print_int 0] ++ concat (map line_of Ws)) = Some (load_body (line_of [print_int nv; print_int nf; print_int 0]) (map line_of Ws)).
Proof.
  intros HN HW HF. set (H := [print_int nv; print_int nf; print_int 0]). assert (GH : List.Forall good_word H) by (repeat constructor; apply good_int).
  assert (EL : lines (str name ++ [nl] ++ line_of H ++ concat (map line_of Ws)) = (str name ++ [nl]) :: line_of H :: map line_of Ws).
  { pose proof (lines_of_lines (([str name]) :: H :: Ws)) as L. specialize (L ltac:(constructor; [constructor; [|constructor]|constructor; assumption]; destruct HN as [-> | ->]; (split; [discriminate|repeat constructor])) []). cbn [map concat] in L. rewrite app_nil_r in L. unfold line_of at 1 in L. cbn [join] in L. rewrite <- app_assoc in L. rewrite L. unfold lines. cbn [lines_from]. rewrite app_nil_r. reflexivity. }
  unfold load_off_stream. rewrite EL. destruct fuel as [|[|fuel]]; [lia|lia|]. 
  assert (E1 : line_empty (str name ++ [nl]) = false) by (destruct HN as [-> | ->]; reflexivity). cbn [skip_empty]. rewrite E1. assert (E2 : drop_off (str name ++ [nl]) = [nl]) by (destruct HN as [-> | ->]; reflexivity). rewrite E2. change (line_empty [nl]) with true. cbv iota. assert (E3 : line_empty (line_of H) = false) by (apply line_not_empty; exact GH). rewrite E3. reflexivity.
Qed.
Lemma load_counts nv nf (Ws : list (list text)) ls : load_body (line_of [print_int (Z.of_nat nv); print_int (Z.of_nat nf); print_int 0]) ls =
  (r <- read_verts ls nv ;; let '(verts, vcol, ls) := r in r <- read_faces ls nf ;; let '(faces, fcol, ls) := r in
   match lstrip (concat ls) with [] => Ok {| o_verts := verts; o_vcol := vcol; o_faces := faces; o_fcol := fcol |} | _ => Fail EValue end).
Proof.
  unfold load_body. rewrite line_header by (repeat constructor; apply good_int). rewrite !parse_int_print. assert (E1 : Z.of_nat nv <? 0 = false) by (apply Z.ltb_ge; lia). assert (E2 : Z.of_nat nf <? 0 = false) by (apply Z.ltb_ge; lia). rewrite E1, E2, !Nat2Z.id. reflexivity.
Qed.
Lemma read_verts_ok w d rows ls : rows <> [] -> List.Forall (fun r => length r = w) rows -> w = 3%nat \/ w = 6%nat \/ w = 7%nat ->
  read_verts (map line_of (map (map (print_real d)) rows) ++ ls) (length rows) =
  Ok (if (w =? 3)%nat then (map (map (as_dec d)) rows, None, ls)
      else (map (map (as_dec d)) (map (firstn 3) rows), Some {| by_255 := false; rows_of := map (map (as_dec d)) (map (skipn 3) rows) |}, ls)).
Proof.
  intros NE HL HW. destruct rows as [|r0 rows]; [congruence|]. set (all := r0 :: rows) in *. unfold read_verts.
  assert (L0 : length r0 = w) by (inversion HL; assumption). 
  assert (EP : count_periods (map line_of (map (map (print_real d)) all) ++ ls) = Ok (match d with O => 0%nat | _ => w end)).
  { unfold all. cbn [map app]. destruct (map (print_real d) r0) as [|w0 ws0] eqn:ER; [destruct r0; [cbn in L0; lia|discriminate]|]. rewrite count_line by (rewrite <- ER; apply good_reals). rewrite <- ER, count_reals, L0. reflexivity. }
  rewrite EP. cbn [rbind]. rewrite <- (map_length (map (print_real d)) all) at 1. rewrite (loadtxt_ok w (map (map (print_real d)) all) (map (map (as_dec d)) all)); [|lia| | |left; reflexivity].
  - rewrite map_length, Nat.eqb_refl. cbn [negb]. assert (EW : width (map (map (as_dec d)) all) = w) by (unfold all; cbn [map width]; rewrite map_length; exact L0). rewrite EW.
    destruct HW as [-> | HW]; [reflexivity|]. assert (E3 : (w =? 3)%nat = false) by (apply Nat.eqb_neq; lia). rewrite E3. assert (E67 : ((w =? 6) || (w =? 7))%nat = true) by (destruct HW as [-> | ->]; reflexivity). rewrite E67. f_equal. f_equal. f_equal.
    + rewrite !map_map. apply map_ext. intros r. apply firstn_map.
    + assert (EB : (match d with O => 0 | _ => w end =? 3)%nat = false) by (destruct d; [reflexivity|exact E3]). rewrite EB. do 2 f_equal. rewrite !map_map. apply map_ext. intros r. apply skipn_map.
  - clear. induction all; constructor; [apply reads_reals|assumption].
  - apply Forall_map. eapply Forall_impl; [|exact HL]. intros r Hr. cbv beta. rewrite map_length. exact Hr.
Qed.
Lemma to_index_small i : 0 <= i < 2 ^ 24 -> to_index (int_dec i) = i.
Proof. intros H. unfold to_index, int_dec. cbn [exp man]. change (0 =? 0) with true. cbv iota. apply fround_small. lia. Qed.
Lemma to_index_all f : List.Forall (fun i => 0 <= i < 2 ^ 24) f -> map to_index (map int_dec f) = f.
Proof. intros H. rewrite map_map. induction H as [|i f Hi H IH]; [reflexivity|]. cbn [map]. rewrite IH, to_index_small by exact Hi. reflexivity. Qed.
(* the rows of a face with k vertices and colours *)
Definition face_row (k : nat) (f : list Z) (c : list dec) : list dec := int_dec (Z.of_nat k) :: map int_dec f ++ c.
Lemma lump_ok k nc W F C ls n_colors : (3 <= k)%nat -> (nc = 0 \/ nc = 3 \/ nc = 4)%nat -> F <> [] -> length F = length C -> List.Forall (fun f => length f = k /\ List.Forall (fun i => 0 <= i < 2 ^ 24) f) F -> List.Forall (fun c => length c = nc) C ->
  Forall2 reads W (map (fun p => face_row k (fst p) (snd p)) (combine F C)) -> (n_colors = None \/ n_colors = Some (Z.of_nat nc)) ->
  faces_lump (map line_of W ++ ls) (length F) n_colors =
  Ok (Some (if (k =? 3)%nat then F else concat (map (fun i => map (fun f => [nth 0 f 0; nth (i + 1) f 0; nth (i + 2) f 0]) F) (seq 0 (k - 2))), Z.of_nat nc,
            if (nc =? 0)%nat then None else Some (if (k =? 3)%nat then C else concat (repeat C (k - 2))), ls)).
Proof.
  intros Hk Hn NE LC HF HC HW HN. set (D := map (fun p => face_row k (fst p) (snd p)) (combine F C)) in *.
  assert (LD : length D = length F) by (unfold D; rewrite map_length, combine_length; lia). assert (LW : length W = length D) by (clear -HW; induction HW; cbn; congruence).
  assert (HWL : List.Forall (fun ws => length ws = (1 + k + nc)%nat) W).
  { assert (DL : List.Forall (fun row => length row = (1 + k + nc)%nat) D).
    { unfold D. apply Forall_map, Forall_forall. intros (f, c) Hp. cbn [fst snd]. rewrite Forall_forall in HF, HC. destruct (HF f ltac:(eapply in_combine_l; exact Hp)) as (Lf & _). pose proof (HC c ltac:(eapply in_combine_r; exact Hp)) as Lc. unfold face_row. cbn [length]. rewrite app_length, map_length. lia. }
    clear -HW DL. induction HW as [|ws row W D (_ & E) HW IH]; [constructor|]. inversion DL; subst. constructor; [rewrite <- (numbers_length _ _ E); assumption|apply IH; assumption]. }
  unfold faces_lump. rewrite <- LD, <- LW at 1. rewrite (loadtxt_ok (1 + k + nc) W D); [|lia|exact HW|exact HWL|left; reflexivity]. rewrite LD, Nat.eqb_refl. cbn [negb].
  assert (HD : exists f c rest, F = f :: rest /\ length c = nc /\ exists D', D = face_row k f c :: D').
  { destruct F as [|f F']; [congruence|]. destruct C as [|c C']; [discriminate|]. exists f, c, F'. split; [reflexivity|]. inversion HC; subst. split; [reflexivity|]. eexists. unfold D. cbn [combine map fst snd]. reflexivity. }
  destruct HD as (f0 & c0 & F' & EF & Lc0 & D' & ED).
  assert (EX : existsb (fun row => match row with x :: _ => negb (is_integer x (Z.of_nat k)) | [] => true end) D = false).
  { clear -D. unfold D. induction (combine F C) as [|(f, c) l IH]; [reflexivity|]. cbn [map existsb fst snd face_row]. rewrite IH. unfold is_integer, int_dec. cbn [exp man]. change (0 <=? 0) with true. cbv iota. rewrite Z.pow_0_r, Z.mul_1_r, Z.eqb_refl. reflexivity. }
  assert (EWD : width D = (1 + k + nc)%nat). { rewrite ED. cbn [width face_row length]. rewrite app_length, map_length, Lc0. subst F. inversion HF as [|? ? (Lf & _) _]; subst. lia. }
  rewrite ED at 1. unfold face_row at 1. assert (ET : to_int (int_dec (Z.of_nat k)) = Z.of_nat k) by (apply to_int_int). cbv zeta. rewrite ET, EX. assert (E3 : Z.of_nat k <? 3 = false) by (apply Z.ltb_ge; lia). rewrite E3, EWD.
  replace (Z.of_nat (1 + k + nc) - 1 - Z.of_nat k) with (Z.of_nat nc) by lia. assert (EC : match n_colors with Some c => negb (Z.of_nat nc =? c) | None => false end = false) by (destruct HN as [-> | ->]; [reflexivity|rewrite Z.eqb_refl; reflexivity]). rewrite EC.
  assert (E034 : negb ((Z.of_nat nc =? 0) || (Z.of_nat nc =? 3) || (Z.of_nat nc =? 4)) = false) by (destruct Hn as [-> | [-> | ->]]; reflexivity). rewrite E034. rewrite Nat2Z.id.
  assert (ER : map (fun row => map to_index (firstn k (skipn 1 row))) D = F).
  { unfold D. clear -HF LC. revert C LC. induction HF as [|f F (Lf & Hf) HF IH]; intros [|c C] LC; try discriminate; [reflexivity|]. cbn [combine map fst snd face_row skipn]. rewrite IH by (cbn in LC; lia). f_equal. rewrite <- Lf, <- (map_length int_dec f), firstn_app, Nat.sub_diag, firstn_O, app_nil_r, firstn_all. apply to_index_all. exact Hf. }
  assert (EK : map (skipn (1 + k)) D = C).
  { unfold D. clear -HF LC. revert C LC. induction HF as [|f F (Lf & Hf) HF IH]; intros [|c C] LC; try discriminate; [reflexivity|]. cbn [combine map fst snd]. rewrite IH by (cbn in LC; lia). f_equal. unfold face_row. change (1 + k)%nat with (S k). cbn [skipn]. rewrite <- Lf, <- (map_length int_dec f), skipn_app, Nat.sub_diag, skipn_O, skipn_all. reflexivity. }
  rewrite ER, EK. destruct Hn as [-> | [-> | ->]]; reflexivity.
Qed.
Lemma strip_nothing : lstrip (concat (@nil text)) = [].
Proof. reflexivity. Qed.
