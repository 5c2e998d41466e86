From Coq Require Import Ascii String ZArith NArith Reals Bool Lia Lra List Permutation.
From Verif Require Import Base RBase Text TextSpec TextProofs Off OffSpec OffProofs.
Import ListNotations.
Local Open Scope Z_scope.

Definition small_faces (k : nat) (F : list (list Z)) : Prop := List.Forall (fun f => length f = k /\ List.Forall (fun i => 0 <= i < 2 ^ 24) f) F.
Lemma reads_tri f : reads (str "3" :: map print_int f) (face_row 3 f []).
Proof. split; [constructor; [apply three_good|apply good_ints]|]. cbn [all_numbers]. rewrite three_parse, numbers_ints. unfold face_row. rewrite app_nil_r. reflexivity. Qed.
Lemma reads_tri_col f c : List.Forall (fun i => 0 <= i < 2 ^ 24) f -> reads (str "3" :: map (fun i => print_int (fround 53 i)) f ++ map (print_real 6) c) (face_row 3 f (map (as_dec 6) c)).
Proof.
  intros H. assert (E : map (fun i => print_int (fround 53 i)) f = map print_int f). { apply map_ext_in. intros i Hi. rewrite Forall_forall in H. specialize (H i Hi). rewrite fround_small; [reflexivity|]. assert (2 ^ 24 < 2 ^ 53) by reflexivity. lia. } rewrite E.
  split; [constructor; [apply three_good|apply Forall_app; split; [apply good_ints|apply good_reals]]|]. cbn [all_numbers]. rewrite three_parse, (numbers_app _ _ _ _ (numbers_ints f) (numbers_reals 6 c)). reflexivity.
Qed.
Lemma combine_nils {A B} (F : list A) : combine F (repeat (@nil B) (length F)) = map (fun f => (f, [])) F.
Proof. induction F; cbn; congruence. Qed.
Lemma read_tris F ls : F <> [] -> small_faces 3 F -> read_faces (map line_of (map (fun f => str "3" :: map print_int f) F) ++ ls) (length F) = Ok (Some F, None, ls).
Proof.
  intros NE HF. unfold read_faces. destruct (length F) as [|n] eqn:EL; [destruct F; [congruence|discriminate]|]. rewrite <- EL.
  assert (EP : exists p, count_periods (map line_of (map (fun f => str "3" :: map print_int f) F) ++ ls) = Ok p). { destruct F as [|f F]; [congruence|]. cbn [map app]. rewrite count_line by (constructor; [apply three_good|apply good_ints]). eexists. reflexivity. }
  destruct EP as (p & ->). cbn [rbind]. rewrite (lump_ok 3 0 (map (fun f => str "3" :: map print_int f) F) F (repeat [] (length F))); try lia; try assumption; [cbn; reflexivity|rewrite repeat_length; reflexivity| | |left; reflexivity].
  - apply Forall_forall. intros c Hc. apply repeat_spec in Hc. subst. reflexivity.
  - rewrite combine_nils, map_map. cbn [fst snd]. clear. induction F; constructor; [apply reads_tri|assumption].
Qed.
Lemma read_tris_col w F C ls : (w = 3 \/ w = 4)%nat -> F <> [] -> length C = length F -> small_faces 3 F -> same_width w C ->
  read_faces (map line_of (map (fun p => str "3" :: map (fun i => print_int (fround 53 i)) (fst p) ++ map (print_real 6) (snd p)) (combine F C)) ++ ls) (length F) = Ok (Some F, Some {| by_255 := false; rows_of := map (map (as_dec 6)) C |}, ls).
Proof.
  intros Hw NE LC HF HC. unfold read_faces. destruct (length F) as [|n] eqn:EL; [destruct F; [congruence|discriminate]|]. rewrite <- EL. set (W := map _ (combine F C)).
  assert (EP : count_periods (map line_of W ++ ls) = Ok w).
  { destruct F as [|f F]; [congruence|]. destruct C as [|c C]; [discriminate|]. unfold W. cbn [combine map app fst snd]. inversion HF as [|? ? (_ & Hf) _]; inversion HC as [|? ? Lc _]; subst. destruct (reads_tri_col f c Hf) as (G & _). rewrite count_line by exact G. f_equal. cbn [map]. rewrite map_app. unfold sum_nat. cbn [fold_right]. change (count_char "."%char (str "3")) with 0%nat. cbn [Nat.add].
    change (sum_nat (map (count_char "."%char) (map (fun i => print_int (fround 53 i)) f) ++ map (count_char "."%char) (map (print_real 6) c)) = length c). rewrite sum_nat_app, count_reals. rewrite <- (map_map (fround 53) print_int), count_ints. reflexivity. }
  rewrite EP. cbn [rbind]. rewrite (lump_ok 3 w W F (map (map (as_dec 6)) C)); try lia; try assumption; [|rewrite map_length; congruence| | |left; reflexivity].
  - cbn [rbind]. destruct Hw as [-> | ->]; reflexivity.
  - apply Forall_map. eapply Forall_impl; [|exact HC]. intros c Hc. cbv beta. rewrite map_length. exact Hc.
  - assert (LC' : length C = length F) by congruence. unfold W. clear -HF LC'. rename LC' into LC. unfold small_faces in HF. revert C LC. induction HF as [|f F (_ & Hf) HF IH]; intros [|c C] LC; try discriminate; [constructor|]. cbn [combine map fst snd]. constructor; [apply reads_tri_col; exact Hf|]. apply IH. cbn in LC. lia.
Qed.
Lemma forallb_width w (rows : list (list R)) : same_width w rows -> forallb (fun r => (length r =? w)%nat) rows = true.
Proof. intros H. apply forallb_forall. unfold same_width in H. rewrite Forall_forall in H. intros r Hr. apply Nat.eqb_eq. apply H. exact Hr. Qed.
Lemma width34_ok rows : same_width 3 rows \/ same_width 4 rows -> width34 rows = true.
Proof. intros [H|H]; unfold width34; rewrite (forallb_width _ _ H); [reflexivity|apply orb_true_r]. Qed.
Lemma widen w verts c : length c = length verts -> same_width 3 verts -> same_width w c -> List.Forall (fun r => length r = (3 + w)%nat) (map (fun p => fst p ++ snd p) (combine verts c)) /\
  map (firstn 3) (map (fun p => fst p ++ snd p) (combine verts c)) = verts /\ map (skipn 3) (map (fun p => fst p ++ snd p) (combine verts c)) = c.
Proof.
  intros L HV. revert c L. unfold same_width in *. induction HV as [|v verts Hv HV IH]; intros [|r c] L HC; try discriminate; [repeat split; constructor|]. inversion HC; subst. destruct (IH c ltac:(cbn in L; lia) ltac:(assumption)) as (A & B & C). cbn [combine map fst snd]. split; [constructor; [rewrite app_length; lia|exact A]|]. rewrite B, C. split; f_equal.
  - rewrite <- Hv, firstn_app, Nat.sub_diag, firstn_O, app_nil_r, firstn_all. reflexivity.
  - rewrite <- Hv, skipn_app, Nat.sub_diag, skipn_O, skipn_all. reflexivity.
Qed.
Lemma body_ok d rows w F (fcol : option (list (list R))) verts' vcol' : rows <> [] -> List.Forall (fun r => length r = w) rows -> w = 3%nat \/ w = 6%nat \/ w = 7%nat -> small_faces 3 F ->
  match fcol with Some C => F <> [] /\ length C = length F /\ (same_width 3 C \/ same_width 4 C) | None => True end ->
  (if (w =? 3)%nat then (map (map (as_dec d)) rows, None) else (map (map (as_dec d)) (map (firstn 3) rows), Some {| by_255 := false; rows_of := map (map (as_dec d)) (map (skipn 3) rows) |})) = (verts', vcol') ->
  forall fuel, (2 <= fuel)%nat ->
  load_off_stream fuel (str "off" ++ [nl] ++ line_of [print_int (Z.of_nat (length rows)); print_int (Z.of_nat (length F)); print_int 0] ++
    concat (map (fun r => line_of (map (print_real d) r)) rows) ++
    match fcol with
    | Some c => concat (map (fun p => line_of (str "3" :: map (fun i => print_int (fround 53 i)) (fst p) ++ map (print_real 6) (snd p))) (combine F c))
    | None => concat (map (fun f => line_of (str "3" :: map print_int f)) F)
    end) = Some (Ok {| o_verts := verts'; o_vcol := vcol'; o_faces := nonempty (Some F); o_fcol := option_map (fun C => {| by_255 := false; rows_of := map (map (as_dec 6)) C |}) fcol |}).
Proof.
  intros NE HL HW HF HC EV fuel Hfu.
  set (W1 := map (map (print_real d)) rows). set (W2 := match fcol with Some c => map (fun p => str "3" :: map (fun i => print_int (fround 53 i)) (fst p) ++ map (print_real 6) (snd p)) (combine F c) | None => map (fun f => str "3" :: map print_int f) F end).
  assert (EB : concat (map (fun r => line_of (map (print_real d) r)) rows) ++ match fcol with
    | Some c => concat (map (fun p => line_of (str "3" :: map (fun i => print_int (fround 53 i)) (fst p) ++ map (print_real 6) (snd p))) (combine F c))
    | None => concat (map (fun f => line_of (str "3" :: map print_int f)) F) end = concat (map line_of (W1 ++ W2))).
  { rewrite map_app, concat_app. unfold W1, W2. rewrite map_map. f_equal. destruct fcol; rewrite map_map; reflexivity. }
  rewrite EB. rewrite (load_head _ _ _ _ _ (or_introl eq_refl)); [|apply Forall_app; split|exact Hfu].
  - rewrite (load_counts (length rows) (length F) []). rewrite map_app. unfold W1. rewrite (read_verts_ok w d rows (map line_of W2) NE HL HW). cbn [rbind].
    assert (ER : (if (w =? 3)%nat then (map (map (as_dec d)) rows, @None colours, map line_of W2) else (map (map (as_dec d)) (map (firstn 3) rows), Some {| by_255 := false; rows_of := map (map (as_dec d)) (map (skipn 3) rows) |}, map line_of W2)) = (verts', vcol', map line_of W2)) by (destruct (w =? 3)%nat; injection EV as <- <-; reflexivity).
    rewrite ER. f_equal. rewrite <- (app_nil_r (map line_of W2)). destruct fcol as [C|].
    + destruct HC as (NF & LC & HC). assert (HC' : exists u, (u = 3 \/ u = 4)%nat /\ same_width u C) by (destruct HC; eauto). destruct HC' as (u & Hu & HC'). unfold W2. rewrite (read_tris_col u F C [] Hu NF LC HF HC'). cbn [rbind]. destruct F; [congruence|reflexivity].
    + unfold W2. destruct F as [|f F']; [reflexivity|]. rewrite read_tris by (discriminate || assumption). reflexivity.
  - unfold W1. apply Forall_map, Forall_forall. intros r _. apply good_reals.
  - unfold W2. destruct fcol as [C|]; apply Forall_map, Forall_forall.
    + intros (f, c) Hp. cbn [fst snd]. constructor; [apply three_good|]. apply Forall_app. split; [|apply good_reals]. apply Forall_map, Forall_forall. intros i _. apply good_int.
    + intros f _. constructor; [apply three_good|apply good_ints].
Qed.
Theorem round_trip verts faces tex decimals : writable verts faces tex ->
  exists file, format_save verts faces tex decimals = Ok file /\
  forall fuel inc, (2 <= fuel)%nat -> exists m, format_read fuel inc file = Some (Ok m) /\ rounded_rows (places decimals) verts (m_verts m) /\ m_faces m = faces /\ same_texture (places decimals) faces tex (m_tex m).
Proof.
  intros (NV & WV & WF & WT). unfold format_save, save_off. rewrite (forallb_width 3 verts WV). cbn [negb]. set (d := places decimals).
  assert (EF : match nonempty (Some faces) with Some f => negb (forallb (fun r => (length r =? 3)%nat) f) | None => false end = false).
  { destruct faces as [|f faces']; [reflexivity|]. cbn [nonempty]. assert (FB : forallb (fun r : list Z => (length r =? 3)%nat) (f :: faces') = true) by (apply forallb_forall; rewrite Forall_forall in WF; intros r Hr; apply Nat.eqb_eq; apply WF; exact Hr). rewrite FB. reflexivity. }
  rewrite EF.
  assert (BW : write_off_data verts None (nonempty (Some faces)) None decimals = str "off" ++ [nl] ++ line_of [print_int (Z.of_nat (length verts)); print_int (Z.of_nat (length faces)); print_int 0] ++ concat (map (fun r => line_of (map (print_real d) r)) verts) ++ concat (map (fun f => line_of (str "3" :: map print_int f)) faces)).
  { unfold write_off_data, d, places. destruct faces; cbn [nonempty length map concat]; rewrite ?app_nil_r; reflexivity. }
  assert (PLAIN : forall fuel inc, (2 <= fuel)%nat -> exists m, format_read fuel inc (write_off_data verts None (nonempty (Some faces)) None decimals) = Some (Ok m) /\ rounded_rows d verts (m_verts m) /\ m_faces m = faces /\ m_tex m = None).
  { intros fuel inc Hfu. rewrite BW. pose proof (body_ok d verts 3 faces None _ _ NV WV (or_introl eq_refl) WF I eq_refl fuel Hfu) as B. unfold format_read. rewrite B. eexists. split; [reflexivity|]. cbn. split; [apply rounded_all|]. split; [destruct faces; reflexivity|reflexivity]. }
  destruct tex as [[c|c|]|].
  - (* vertex colours *)
    destruct WT as (LC & HC). destruct c as [|c0 cs] eqn:EC; [destruct verts; [congruence|discriminate]|]. rewrite <- EC in *. assert (NC : nonempty (Some c) = Some c) by (subst; reflexivity). rewrite NC, (width34_ok c HC), LC, Nat.eqb_refl. cbn [negb orb]. change (nonempty (@None (list (list R)))) with (@None (list (list R))). cbv iota.
    eexists. split; [reflexivity|]. intros fuel inc Hfu. assert (HC' : exists u, (u = 3 \/ u = 4)%nat /\ same_width u c) by (destruct HC; eauto). destruct HC' as (u & Hu & HC'). destruct (widen u verts c LC WV HC') as (A & B & C).
    set (rows := map (fun p => fst p ++ snd p) (combine verts c)) in *. assert (LR : length rows = length verts) by (unfold rows; rewrite map_length, combine_length; lia).
    assert (NR : rows <> []) by (intros E; rewrite E in LR; destruct verts; [congruence|discriminate]).
    pose proof (body_ok d rows (3 + u) faces None (map (map (as_dec d)) verts) (Some {| by_255 := false; rows_of := map (map (as_dec d)) c |}) NR A ltac:(lia) WF I) as BO.
    assert (EI : (3 + u =? 3)%nat = false) by (apply Nat.eqb_neq; lia). rewrite EI, B, C in BO. specialize (BO eq_refl fuel Hfu). rewrite LR in BO.
    assert (EW : write_off_data verts (Some c) (nonempty (Some faces)) None decimals = str "off" ++ [nl] ++ line_of [print_int (Z.of_nat (length verts)); print_int (Z.of_nat (length faces)); print_int 0] ++ concat (map (fun r => line_of (map (print_real d) r)) rows) ++ concat (map (fun f => line_of (str "3" :: map print_int f)) faces)).
    { unfold write_off_data, d, places. fold rows. destruct faces; cbn [nonempty length map concat]; rewrite ?app_nil_r; reflexivity. }
    unfold format_read. rewrite EW, BO. eexists. split; [reflexivity|]. cbn. split; [apply rounded_all|]. split; [destruct faces; reflexivity|]. eexists. split; [reflexivity|apply rounded_all].
  - (* face colours *)
    destruct WT as (LC & HC). change (nonempty (@None (list (list R)))) with (@None (list (list R))). cbv iota. destruct faces as [|f0 fs] eqn:EFS.
    + destruct c; [|discriminate]. cbn [nonempty]. eexists. split; [reflexivity|]. intros fuel inc Hfu. destruct (PLAIN fuel inc Hfu) as (m & E & R1 & R2 & R3). exists m. split; [exact E|]. split; [exact R1|]. split; [exact R2|]. exact R3.
    + rewrite <- EFS in *. assert (NF : nonempty (Some faces) = Some faces) by (subst; reflexivity). rewrite NF. destruct c as [|c0 cs] eqn:EC; [rewrite EFS in LC; discriminate|]. rewrite <- EC in *. assert (NC : nonempty (Some c) = Some c) by (subst c; reflexivity). rewrite NC, (width34_ok c HC), LC, Nat.eqb_refl. cbn [negb orb].
      eexists. split; [reflexivity|]. intros fuel inc Hfu. assert (NE : faces <> []) by (rewrite EFS; discriminate).
      pose proof (body_ok d verts 3 faces (Some c) _ _ NV WV (or_introl eq_refl) WF (conj NE (conj LC HC)) eq_refl fuel Hfu) as BO.
      assert (EW : write_off_data verts None (Some faces) (Some c) decimals = str "off" ++ [nl] ++ line_of [print_int (Z.of_nat (length verts)); print_int (Z.of_nat (length faces)); print_int 0] ++ concat (map (fun r => line_of (map (print_real d) r)) verts) ++ concat (map (fun p => line_of (str "3" :: map (fun i => print_int (fround 53 i)) (fst p) ++ map (print_real 6) (snd p))) (combine faces c))) by reflexivity.
      unfold format_read. rewrite EW, BO. eexists. split; [reflexivity|]. cbn. split; [apply rounded_all|]. rewrite EFS. cbn [nonempty]. split; [reflexivity|]. eexists. split; [reflexivity|apply rounded_all].
  - cbn [nonempty]. eexists. split; [reflexivity|]. intros fuel inc Hfu. destruct (PLAIN fuel inc Hfu) as (m & E & R1 & R2 & R3). exists m. repeat (split; [assumption|]). exact R3.
  - cbn [nonempty]. eexists. split; [reflexivity|]. intros fuel inc Hfu. destruct (PLAIN fuel inc Hfu) as (m & E & R1 & R2 & R3). exists m. repeat (split; [assumption|]). exact R3.
Qed.
