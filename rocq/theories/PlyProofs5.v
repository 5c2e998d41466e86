(* Whole files. *)
From Coq Require Import Ascii String ZArith NArith Reals Bool List Permutation Lia Lra.
From Verif Require Import Base RBase Text TextSpec TextProofs Ply PlySpec PlyProofs PlyProofs2 PlyProofs3 PlyProofs4.
Import ListNotations.
Local Open Scope Z_scope.

Lemma good_heads fit es : Forall (good_element fit) es -> Forall good_head (map fst es).
Proof. intros H. apply Forall_map. eapply Forall_impl; [|exact H]. intros [e rows] (G1 & G2 & G3 & G4 & G5 & G6). cbn in *. repeat split; auto; apply G1. Qed.
Lemma header_length_eq (es : content) : (sum_nat (map (fun e => S (length (e_props e))) (map fst es)) + 2)%nat = header_length es.
Proof. unfold header_length. now rewrite map_map. Qed.
Lemma load_binary_cut host big es k extra fuel : good_content datum_fits es -> (header_length es <= fuel)%nat ->
  load_ply_data host fuel (unlines (the_header (FBinary big) (map fst es)) ++ firstn k (binary_data big es ++ extra)) =
  Some (if (k <? length (binary_data big es))%nat then Fail EValue
        else if blank (firstn (k - length (binary_data big es)) extra) then v <- get_verts (map fst es) (data_of es) ;; fs <- get_faces (map fst es) (data_of es) ;; Ok (PD v fs)
        else Fail EValue).
Proof.
  intros (G0 & G1 & G2) Hf. unfold load_ply_data. rewrite read_file; [|destruct es; easy|eapply good_heads; eauto|rewrite header_length_eq; auto].
  cbn [read_elements]. rewrite concat_lines, elements_binary_ok by auto. rewrite app_nil_r.
  destruct (k <? _)%nat; [reflexivity|]. destruct (blank _); reflexivity.
Qed.
Lemma load_binary host big es extra fuel : good_content datum_fits es -> (header_length es <= fuel)%nat ->
  load_ply_data host fuel (binary_file big es ++ extra) =
  Some (if blank extra then v <- get_verts (map fst es) (data_of es) ;; fs <- get_faces (map fst es) (data_of es) ;; Ok (PD v fs) else Fail EValue).
Proof.
  intros G Hf. unfold binary_file. rewrite <- app_assoc. rewrite <- (firstn_all (binary_data big es ++ extra)). rewrite load_binary_cut by auto.
  rewrite app_length. destruct (Nat.ltb_spec (length (binary_data big es) + length extra) (length (binary_data big es))); [lia|].
  replace (length (binary_data big es) + length extra - length (binary_data big es))%nat with (length extra) by lia. now rewrite firstn_all.
Qed.
Lemma unlines_no_nl ls extra : Forall (fun l => Forall (fun c => Ascii.eqb c nl = false) l) ls -> lines (unlines ls ++ extra) = map addnl ls ++ lines extra.
Proof. intros H. unfold unlines. now rewrite lines_concat. Qed.
Lemma good_word_no_nl w : good_word w -> Forall (fun c => Ascii.eqb c nl = false) w.
Proof. intros [_ H]. eapply Forall_impl; [|exact H]. now intros c (_ & _ & ?). Qed.
Lemma load_text host es extra fuel : good_content datum_fits_text es -> Forall (fun er => decimals_readable (fst er)) es -> (header_length es <= fuel)%nat ->
  load_ply_data host fuel (text_file es ++ extra) =
  Some (if blank extra then v <- get_verts (map fst es) (data_of es) ;; fs <- get_faces (map fst es) (data_of es) ;; Ok (PD v fs) else Fail EValue).
Proof.
  intros (G0 & G1 & G2) Hd Hf. unfold text_file. rewrite <- app_assoc. unfold load_ply_data. rewrite read_file; [|destruct es; easy|eapply good_heads; eauto|rewrite header_length_eq; auto].
  cbn [read_elements]. rewrite unlines_no_nl.
  - rewrite elements_ascii_ok by auto. rewrite concat_lines, app_nil_r. destruct (blank _); reflexivity.
  - apply Forall_concat, Forall_map. eapply Forall_impl; [|exact G2]. intros [e rows] (H1 & H2 & H3 & H4 & H5 & H6). cbn [fst snd] in *. apply Forall_map.
    eapply Forall_impl; [|exact H6]. intros row Hr. unfold shown_row. apply join_forall; [reflexivity|]. apply row_words in Hr. eapply Forall_impl; [|exact Hr]. apply good_word_no_nl.
Qed.
Lemma content_parts (fit : prop -> datum -> Prop) es ps rows polys : (forall p d, fit p d -> p_list p = None -> exists v, d = One v) -> good_content fit es -> good_vertices es ps rows -> polygons es polys -> at_least_three polys ->
  exists v fs, (v <- get_verts (map fst es) (data_of es) ;; fs <- get_faces (map fst es) (data_of es) ;; Ok (PD v fs)) = Ok (PD v fs) /\ reads_vertices ps rows v /\ reads_faces polys fs.
Proof.
  intros Hfit (G0 & G1 & G2) Hv Hp H3. rewrite Forall_forall in G2.
  destruct (get_faces_some es polys G1 Hp H3) as (fs & F1 & F2).
  pose proof Hv as (e & Hi & He & Hps & Hl & Hx & Ho). pose proof (G2 _ Hi) as (A1 & A2 & A3 & A4 & A5 & A6). cbn [fst snd] in *. subst ps.
  destruct (get_verts_ok es (e_props e) rows G1 Hv A4) as (v & V1 & V2).
  - eapply Forall_impl; [|exact A5]. intros p (_ & B & C). split; auto.
  - intros e' Hi' _. pose proof (G2 _ Hi') as (_ & B & _). exact B.
  - eapply Forall_impl; [|exact A6]. intros row Hr. clear - Hr Hl Hfit. induction Hr as [|p d ps row Hd Hr IH]; [constructor|]. apply Forall_cons_iff in Hl as [Hp Hl]. constructor; auto. eapply Hfit; eauto.
  - exists v, fs. rewrite V1, F1. auto.
Qed.
Lemma fit_one p d : datum_fits p d -> p_list p = None -> exists v, d = One v.
Proof. unfold datum_fits. intros H E. rewrite E in H. destruct d; [eauto|easy]. Qed.
Lemma fit_text_one p d : datum_fits_text p d -> p_list p = None -> exists v, d = One v.
Proof. unfold datum_fits_text. intros H E. rewrite E in H. destruct d; [eauto|easy]. Qed.
Lemma binary_reads host big es ps rows polys extra fuel : good_content datum_fits es -> good_vertices es ps rows -> polygons es polys -> at_least_three polys -> (header_length es <= fuel)%nat -> blank extra = true ->
  exists v fs, load_ply_data host fuel (binary_file big es ++ extra) = Some (Ok (PD v fs)) /\ reads_vertices ps rows v /\ reads_faces polys fs.
Proof.
  intros G Hv Hp H3 Hf Hb. destruct (content_parts _ es ps rows polys fit_one G Hv Hp H3) as (v & fs & E & A & B). exists v, fs. rewrite load_binary by auto. rewrite Hb, E. auto.
Qed.
Lemma text_reads host es ps rows polys extra fuel : good_content datum_fits_text es -> Forall (fun er => decimals_readable (fst er)) es -> good_vertices es ps rows -> polygons es polys -> at_least_three polys ->
  (header_length es <= fuel)%nat -> blank extra = true ->
  exists v fs, load_ply_data host fuel (text_file es ++ extra) = Some (Ok (PD v fs)) /\ reads_vertices ps rows v /\ reads_faces polys fs.
Proof.
  intros G Hd Hv Hp H3 Hf Hb. destruct (content_parts _ es ps rows polys fit_text_one G Hv Hp H3) as (v & fs & E & A & B). exists v, fs. rewrite load_text by auto. rewrite Hb, E. auto.
Qed.
Lemma small_polygon (fit : prop -> datum -> Prop) host file es ps rows polys fuel :
  (load_ply_data host fuel file = Some (v <- get_verts (map fst es) (data_of es) ;; fs <- get_faces (map fst es) (data_of es) ;; Ok (PD v fs))) ->
  (forall p d, fit p d -> p_list p = None -> exists v, d = One v) -> good_content fit es -> good_vertices es ps rows -> polygons es polys -> ~ at_least_three polys ->
  load_ply_data host fuel file = Some (Fail EValue).
Proof.
  intros E Hfit (G0 & G1 & G2) Hv Hp H3. rewrite E, (get_faces_small es polys) by auto. f_equal.
  rewrite Forall_forall in G2. pose proof Hv as (e & Hi & He & Hps & Hl & Hx & Ho). pose proof (G2 _ Hi) as (A1 & A2 & A3 & A4 & A5 & A6). cbn [fst snd] in *. subst ps.
  destruct (get_verts_ok es (e_props e) rows G1 Hv A4) as (v & V1 & V2).
  - eapply Forall_impl; [|exact A5]. intros p (_ & B & C). split; auto.
  - intros e' Hi' _. pose proof (G2 _ Hi') as (_ & B & _). exact B.
  - eapply Forall_impl; [|exact A6]. intros row Hr. clear - Hr Hl Hfit. induction Hr as [|p d ps row Hd Hr IH]; [constructor|]. apply Forall_cons_iff in Hl as [Hp Hl]. constructor; auto. eapply Hfit; eauto.
  - rewrite V1. reflexivity.
Qed.

(* ---- header without an end ---- *)
Lemma loop_no_end fuel : forall st ls r, (forall l, In l ls -> ~ ends_header l) -> header_loop fuel st ls <> Some (Ok r).
Proof.
  induction fuel as [|fuel IH]; intros st ls r H; [easy|]. cbn [header_loop].
  set (line := match ls with [] => [] | l :: _ => l end). set (ls' := match ls with [] => [] | _ :: ls => ls end).
  replace (match ls with [] => ([], []) | l :: ls => (l, ls) end) with (line, ls') by (destruct ls; reflexivity).
  destruct (negb (is_ascii line)); [easy|].
  assert (Hn : strip str_space line <> str "end_header"). { unfold line. destruct ls as [|l ls0]; [cbn; easy|]. apply H. now left. }
  assert (Hs : forall x, header_step st (strip str_space line) <> Ok (inr x)).
  { intros x. unfold header_step. rewrite text_eqb_neq by exact Hn. destruct (match seen st with None => format_of _ | Some _ => None end); [easy|].
    destruct (starts "format" _); [easy|]. destruct (_ || _); [easy|]. destruct (starts "element" _); [destruct (parse_element _ _); easy|].
    destruct (starts "obj_info " _); [easy|]. destruct (starts "property" _); [destruct (parse_property _ _); easy|]. easy. }
  destruct (header_step st (strip str_space line)) as [[st'|x]|e]; [|now elim (Hs x)|easy].
  apply IH. intros l Hl. apply H. unfold ls' in Hl. destruct ls; [easy|]. now right.
Qed.
Lemma no_end_never host fuel file d : ~ has_end file -> load_ply_data host fuel file <> Some (Ok d).
Proof.
  intros H E. unfold load_ply_data, read_header in E. unfold has_end in H. destruct (lines file) as [|l ls]; [easy|]. destruct (_ || _); [|easy].
  destruct (header_loop fuel (HS None []) ls) as [[r|e]|] eqn:El; [|easy|easy]. apply loop_no_end in El; [easy|]. intros x Hx Hxx. apply H. exists x. split; auto.
Qed.
Lemma loop_end : forall ls fuel st l, In l ls -> ends_header l -> (length ls <= fuel)%nat -> header_loop fuel st ls <> None.
Proof.
  induction ls as [|x ls IH]; intros fuel st l Hi He Hf; [easy|]. destruct fuel as [|fuel]; [cbn in Hf; lia|]. cbn [header_loop]. destruct (negb _); [easy|].
  destruct Hi as [->|Hi].
  - rewrite He. unfold header_step. change (text_eqb (str "end_header") (str "end_header")) with true. cbv iota. destruct (els st); [easy|]. destruct (no_props st); [easy|]. destruct (seen st); easy.
  - destruct (header_step _ _) as [[st'|[f es]]|e]; try easy. apply (IH fuel st' l); auto. cbn in Hf. lia.
Qed.
Lemma end_terminates host fuel file : has_end file -> (length (lines file) <= fuel)%nat -> exists r, load_ply_data host fuel file = Some r.
Proof.
  intros (l & Hl & He) Hf. unfold load_ply_data, read_header. destruct (lines file) as [|x ls]; [easy|]. cbn in Hl, Hf.
  destruct (_ || _); [|eauto]. pose proof (loop_end ls fuel (HS None []) l Hl He ltac:(lia)) as H. destruct (header_loop fuel (HS None []) ls) as [[[[f es] rest]|e]|]; [eauto|eauto|easy].
Qed.

(* ---- comments ---- *)
Lemma drop_app p a b : (match b with c :: _ => p c = false | [] => False end) -> drop_while p (a ++ b) = drop_while p a ++ b.
Proof. intros H. induction a as [|c a IH]; cbn; [destruct b; [easy|cbn; now rewrite H]|]. destruct (p c); auto. Qed.
Lemma strip_keeps w t : w <> [] -> (match w with c :: _ => str_space c = false | [] => False end) -> (match rev w with c :: _ => str_space c = false | [] => False end) ->
  strip str_space (w ++ t) = w ++ rev (drop_while str_space (rev t)).
Proof.
  intros H0 H1 H2. unfold strip. assert (E : drop_while str_space (w ++ t) = w ++ t) by (destruct w; [easy|cbn; now rewrite H1]). rewrite E, rev_app_distr.
  rewrite drop_app by exact H2. now rewrite rev_app_distr, rev_involutive.
Qed.
Lemma comment_step st w : header_step st (strip str_space (str "comment" ++ w)) = Ok (inl st).
Proof.
  rewrite strip_keeps by easy. set (t := rev (drop_while str_space (rev w))). unfold header_step. cbn [str list_ascii_of_string app].
  destruct (seen st); reflexivity.
Qed.
Lemma insert_comment w L2 r : is_ascii (str "comment" ++ w) = true -> forall L1 fuel st, (forall l, In l L1 -> ~ ends_header l) ->
  header_loop fuel st (L1 ++ L2) = Some r -> header_loop (S fuel) st (L1 ++ (str "comment" ++ w) :: L2) = Some r.
Proof.
  intros Ha. induction L1 as [|l L1 IH]; intros fuel st H E.
  - cbn [app]. cbn [header_loop]. rewrite Ha. cbn [negb]. now rewrite comment_step.
  - destruct fuel as [|fuel]; [easy|]. cbn [app] in *. change (header_loop (S (S fuel)) st (l :: L1 ++ (str "comment" ++ w) :: L2)) with
      (if negb (is_ascii l) then Some (Fail EValue)
      else match header_step st (strip str_space l) with
           | Fail e => Some (Fail e)
           | Ok (inr (f, es)) => Some (Ok (f, es, L1 ++ (str "comment" ++ w) :: L2))
           | Ok (inl st) => header_loop (S fuel) st (L1 ++ (str "comment" ++ w) :: L2)
           end).
    cbn [header_loop] in E. destruct (negb _); auto.
    pose proof (loop_no_end 1 st [l]) as NE. destruct (header_step st (strip str_space l)) as [[st'|[f es]]|e] eqn:Es; auto.
    + apply IH; auto. intros x Hx. apply H. now right.
    + exfalso. destruct (is_ascii l) eqn:Eas; [|]. 
      * apply (NE (f, es, [])). { intros x [<-|[]]. apply H. now left. } cbn [header_loop]. rewrite Eas. cbn [negb]. now rewrite Es.
      * clear NE. assert (Hn : strip str_space l <> str "end_header") by (apply H; now left). unfold header_step in Es. rewrite text_eqb_neq in Es by exact Hn.
        destruct (match seen st with None => format_of _ | Some _ => None end); [easy|].
        destruct (starts "format" _); [easy|]. destruct (_ || _); [easy|]. destruct (starts "element" _); [destruct (parse_element _ _); easy|].
        destruct (starts "obj_info " _); [easy|]. destruct (starts "property" _); [destruct (parse_property _ _); easy|]. easy.
Qed.
Lemma comment_ignored host fuel first L1 w L2 data r :
  Forall (fun l => Forall (fun c => Ascii.eqb c nl = false) l) (first :: L1 ++ L2) -> Forall (fun c => Ascii.eqb c nl = false /\ (nat_of_ascii c < 128)%nat) w ->
  (forall l, In l L1 -> ~ ends_header (l ++ [nl])) -> load_ply_data host fuel (unlines (first :: L1 ++ L2) ++ data) = Some r ->
  load_ply_data host (S fuel) (unlines (first :: L1 ++ (str "comment" ++ w) :: L2) ++ data) = Some r.
Proof.
  intros Hn Hw He E. unfold load_ply_data in *.
  assert (Hn' : Forall (fun l => Forall (fun c => Ascii.eqb c nl = false) l) (first :: L1 ++ (str "comment" ++ w) :: L2)).
  { apply Forall_cons_iff in Hn as [H1 H2]. constructor; auto. apply Forall_app in H2 as [H2 H3]. apply Forall_app. split; auto. constructor; auto. apply Forall_app. split; [repeat constructor|].
    eapply Forall_impl; [|exact Hw]. now intros c []. }
  rewrite unlines_no_nl in * by auto. rewrite map_cons, <- app_comm_cons in *. cbn [read_header] in *.
  destruct (_ || _); [|exact E]. rewrite map_app, <- app_assoc in *. rewrite map_cons, <- app_comm_cons.
  destruct (header_loop fuel (HS None []) (map addnl L1 ++ map addnl L2 ++ lines data)) as [x|] eqn:El; [|easy].
  replace (addnl (str "comment" ++ w)) with (str "comment" ++ w ++ [nl]) by (unfold addnl; now rewrite app_assoc).
  erewrite insert_comment; [exact E| | |exact El].
  - unfold is_ascii. rewrite !forallb_app. apply andb_true_intro. split; [reflexivity|]. apply andb_true_intro. split; [|reflexivity]. apply forallb_forall. intros c Hc.
    rewrite Forall_forall in Hw. apply Nat.ltb_lt. now apply Hw.
  - intros l Hl. apply in_map_iff in Hl as (l' & <- & Hl'). now apply He.
Qed.

(* ---- a file cut in its header ---- *)
Lemma drop_split p l : exists a, l = a ++ drop_while p l /\ Forall (fun c => p c = true) a.
Proof.
  induction l as [|c l (a & E & F)]; [exists []; split; [reflexivity|constructor]|]. cbn. destruct (p c) eqn:Ec; [|exists []; split; [reflexivity|constructor]].
  exists (c :: a). cbn. rewrite <- E. split; [reflexivity|constructor; auto].
Qed.
Lemma strip_infix x : exists a b, x = a ++ strip str_space x ++ b /\ Forall (fun c => str_space c = true) a.
Proof.
  unfold strip. destruct (drop_split str_space x) as (a & E & F). destruct (drop_split str_space (rev (drop_while str_space x))) as (b & E' & _).
  exists a, (rev b). split; auto. rewrite E at 1. f_equal. apply (f_equal (@rev _)) in E'. rewrite rev_involutive, rev_app_distr in E'. exact E'.
Qed.
Lemma ends_start c x : ends_header (c :: x) -> str_space c = false -> firstn 10 (c :: x) = str "end_header".
Proof.
  unfold ends_header. intros H Hc. destruct (strip_infix (c :: x)) as (a & b & E & F). rewrite H in E. destruct a as [|d a].
  - rewrite E. reflexivity.
  - cbn in E. injection E as <- _. apply Forall_cons_iff in F as [F _]. congruence.
Qed.
(* no beginning of the line, with or without a newline, ends the header *)
Definition harmless (l : text) : Prop := forall m, ~ ends_header (firstn m l) /\ ~ ends_header (firstn m l ++ [nl]).
Lemma harmless_head c0 c1 l : str_space c0 = false -> [c0; c1] <> ["e"; "n"]%char -> harmless (c0 :: c1 :: l).
Proof.
  intros Hc Hn m. split; intros He.
  - destruct m as [|[|m]]; [discriminate|cbn in He; apply ends_start in He; auto; discriminate|]. cbn [firstn] in He. apply ends_start in He; auto. cbn [firstn] in He. injection He as E1 E2 _. congruence.
  - destruct m as [|[|m]]; [discriminate|cbn in He; apply ends_start in He; auto; discriminate|]. cbn [firstn app] in He. apply ends_start in He; auto. cbn [firstn] in He. injection He as E1 E2 _. congruence.
Qed.
Lemma lines_prefix ls : Forall (fun l => Forall (fun c => Ascii.eqb c nl = false) l) ls -> forall k x, In x (lines (firstn k (unlines ls))) ->
  exists l, In l ls /\ (x = l ++ [nl] \/ exists m, x = firstn m l).
Proof.
  induction 1 as [|l ls Hl H IH]; intros k x Hx.
  - unfold unlines in Hx. cbn in Hx. rewrite firstn_nil in Hx. easy.
  - unfold unlines in Hx. cbn [map concat] in Hx. fold (unlines ls) in Hx. rewrite <- app_assoc in Hx. destruct (Nat.leb_spec k (length l)) as [C|C].
    + rewrite firstn_app in Hx. replace (k - length l)%nat with 0%nat in Hx by lia. rewrite firstn_O, app_nil_r in Hx.
      assert (Hk : Forall (fun c => Ascii.eqb c nl = false) (firstn k l)) by (rewrite <- (firstn_skipn k l) in Hl; now apply Forall_app in Hl).
      assert (El : forall w cur, Forall (fun c => Ascii.eqb c nl = false) w -> lines_from cur w = match cur ++ w with [] => [] | c :: t => [c :: t] end).
      { clear. induction w as [|c w IHw]; intros cur Hw; cbn [lines_from]; [rewrite app_nil_r; destruct cur; reflexivity|]. apply Forall_cons_iff in Hw as [-> Hw]. rewrite IHw, <- app_assoc by auto. reflexivity. }
      unfold lines in Hx. rewrite El in Hx by auto. cbn [app] in Hx. exists l. split; [now left|]. right. exists k. destruct (firstn k l); [easy|]. destruct Hx as [<-|[]]. reflexivity.
    + rewrite firstn_app, firstn_all2 in Hx by lia. destruct (k - length l)%nat as [|j] eqn:Ej; [lia|]. cbn [app firstn] in Hx.
      unfold lines in Hx. rewrite lines_from_app in Hx by auto. cbn [app] in Hx. destruct Hx as [<-|Hx]; [exists l; split; [now left|now left]|].
      destruct (IH j x Hx) as (l' & A & B). exists l'. split; [now right|auto].
Qed.
Lemma property_harmless p : harmless (property_line p).
Proof. unfold property_line. cbn [str list_ascii_of_string app]. now apply harmless_head. Qed.
Lemma format_harmless f : harmless (format_line f).
Proof. destruct f as [|[|]]; now apply harmless_head. Qed.
Lemma lines_tl first ls k x : Forall (fun c => Ascii.eqb c nl = false) first -> In x (tl (lines (firstn k (unlines (first :: ls))))) -> exists j, In x (lines (firstn j (unlines ls))).
Proof.
  intros H Hx. unfold unlines in Hx. cbn [map concat] in Hx. fold (unlines ls) in Hx. rewrite <- app_assoc in Hx. destruct (Nat.leb_spec k (length first)) as [C|C].
  - rewrite firstn_app in Hx. replace (k - length first)%nat with 0%nat in Hx by lia. rewrite firstn_O, app_nil_r in Hx.
    assert (Hk : Forall (fun c => Ascii.eqb c nl = false) (firstn k first)) by (rewrite <- (firstn_skipn k first) in H; now apply Forall_app in H).
    assert (El : forall w cur, Forall (fun c => Ascii.eqb c nl = false) w -> lines_from cur w = match cur ++ w with [] => [] | c :: t => [c :: t] end).
    { clear. induction w as [|c w IHw]; intros cur Hw; cbn [lines_from]; [rewrite app_nil_r; destruct cur; reflexivity|]. apply Forall_cons_iff in Hw as [-> Hw]. rewrite IHw, <- app_assoc by auto. reflexivity. }
    unfold lines in Hx. rewrite El in Hx by auto. cbn [app] in Hx. destruct (firstn k first); easy.
  - rewrite firstn_app, firstn_all2 in Hx by lia. destruct (k - length first)%nat as [|j] eqn:Ej; [lia|]. cbn [app firstn] in Hx.
    unfold lines in Hx. rewrite lines_from_app in Hx by auto. cbn [app tl] in Hx. exists j. exact Hx.
Qed.
Lemma cut_header f es k : Forall good_head es -> (S k < length (unlines (the_header f es)))%nat -> ~ has_end (firstn k (unlines (the_header f es))).
Proof.
  intros Hg Hk (x & Hx & He). set (short := str "ply" :: format_line f :: concat (map element_lines es) ++ [firstn 9 (str "end_header")]).
  assert (Hpre : exists pre, the_header f es = pre ++ [str "end_header"] /\ short = pre ++ [firstn 9 (str "end_header")]).
  { exists (str "ply" :: format_line f :: concat (map element_lines es)). split; reflexivity. }
  destruct Hpre as (pre & E1 & E2).
  assert (Hu : forall w, unlines (pre ++ [w]) = unlines pre ++ w ++ [nl]). { intros w. unfold unlines. rewrite map_app, concat_app. cbn. now rewrite app_nil_r. }
  assert (Ek : firstn k (unlines (the_header f es)) = firstn k (unlines short)).
  { rewrite E1, E2, !Hu. rewrite E1, Hu, !app_length in Hk. rewrite !firstn_app. f_equal. cbn [length str list_ascii_of_string] in Hk.
    remember (k - length (unlines pre))%nat as j. assert (Hj : (j <= 9)%nat) by lia. do 10 (destruct j as [|j]; [reflexivity|]). lia. }
  rewrite Ek in Hx. assert (Hnl : Forall (fun l => Forall (fun c => Ascii.eqb c nl = false) l) short).
  { pose proof (header_no_nl f es Hg) as H. rewrite E1 in H. rewrite E2. apply Forall_app in H as [H _]. apply Forall_app. split; auto. repeat constructor. }
  unfold short in Hx, Hnl. apply Forall_cons_iff in Hnl as [Hn1 Hn2]. apply lines_tl in Hx as (j & Hx); auto. apply lines_prefix in Hx as (l & Hl & Hx); auto.
  assert (Hh : harmless l).
  { destruct Hl as [<-|Hl]; [apply format_harmless|]. apply in_app_iff in Hl as [Hl|[<-|[]]].
    - apply in_concat in Hl as (ll & Hll & Hl). apply in_map_iff in Hll as (e & <- & _). unfold element_lines in Hl. destruct Hl as [<-|Hl]; [cbn [str list_ascii_of_string app]; now apply harmless_head|].
      apply in_map_iff in Hl as (p & <- & _). apply property_harmless.
    - intros m. do 10 (destruct m as [|m]; [split; discriminate|]). split; discriminate. }
  destruct Hx as [-> | (m & ->)].
  - destruct (Hh (length l)) as [_ H]. rewrite firstn_all in H. contradiction.
  - destruct (Hh m) as [H _]. contradiction.
Qed.
Lemma last_newline : forall fuel L st f es, header_loop fuel st (L ++ [addnl (str "end_header")]) = Some (Ok (f, es, [])) -> header_loop fuel st (L ++ [str "end_header"]) = Some (Ok (f, es, [])).
Proof.
  induction fuel as [|fuel IH]; intros L st f es HO; [easy|]. destruct L as [|x L].
  - cbn [app header_loop] in *. change (is_ascii (addnl (str "end_header"))) with true in HO. change (is_ascii (str "end_header")) with true. cbn [negb] in *.
    change (strip str_space (addnl (str "end_header"))) with (str "end_header") in HO. change (strip str_space (str "end_header")) with (str "end_header"). exact HO.
  - cbn [app header_loop] in *. destruct (negb _); [easy|]. destruct (header_step _ _) as [[st'|[f' es']]|e]; [now apply IH| |easy].
    injection HO as -> -> HL. destruct L; discriminate.
Qed.
Lemma truncated host big es k fuel d : good_content datum_fits es -> binary_data big es <> [] -> (k < length (binary_file big es))%nat -> (header_length es <= fuel)%nat ->
  load_ply_data host fuel (firstn k (binary_file big es)) <> Some (Ok d).
Proof.
  intros G Hne Hk Hf. unfold binary_file in *. set (hd := unlines (the_header (FBinary big) (map fst es))) in *. rewrite app_length in Hk. pose proof G as (G0 & G1 & G2). apply good_heads in G2.
  destruct (Nat.leb_spec (length hd) k) as [C|C].
  - rewrite firstn_app, firstn_all2 by lia. rewrite <- (app_nil_r (binary_data big es)). unfold hd. rewrite load_binary_cut by auto. fold hd.
    destruct (Nat.ltb_spec (k - length hd) (length (binary_data big es))); [easy|lia].
  - destruct (Nat.eq_dec (S k) (length hd)) as [C'|C'].
    + (* only the newline after end_header is missing *)
      rewrite firstn_app. replace (k - length hd)%nat with 0%nat by lia. rewrite firstn_O, app_nil_r.
      set (pre := str "ply" :: format_line (FBinary big) :: concat (map element_lines (map fst es))).
      assert (Eh : hd = unlines pre ++ str "end_header" ++ [nl]). { unfold hd, the_header, pre. unfold unlines. cbn [map]. rewrite map_app. cbn [concat map]. rewrite concat_app. cbn [concat]. rewrite !app_nil_r, !app_assoc. reflexivity. }
      assert (Ek : firstn k hd = unlines pre ++ str "end_header").
      { rewrite Eh, app_assoc. rewrite firstn_app. rewrite Eh, !app_length in C'. cbn [length] in C'. replace (k - length (unlines pre ++ str "end_header"))%nat with 0%nat by (rewrite app_length; lia).
        rewrite firstn_O, app_nil_r. apply firstn_all2. rewrite app_length. lia. }
      rewrite Ek. assert (Hnp : Forall (fun l => Forall (fun c => Ascii.eqb c nl = false) l) pre).
      { pose proof (header_no_nl (FBinary big) (map fst es) G2) as H. unfold the_header in H. change (str "ply" :: format_line (FBinary big) :: concat (map element_lines (map fst es)) ++ [str "end_header"]) with (pre ++ [str "end_header"]) in H. now apply Forall_app in H. }
      unfold load_ply_data. rewrite unlines_no_nl by auto. change (lines (str "end_header")) with [str "end_header"].
      assert (ER : read_header fuel (map addnl pre ++ [str "end_header"]) = Some (Ok (FBinary big, map fst es, []))).
      { pose proof (header_ok (FBinary big) (map fst es) [] fuel) as HO. rewrite header_length_eq in HO. specialize (HO ltac:(destruct es; easy) G2 Hf). unfold the_header in HO. cbn [map app] in HO.
        unfold pre. cbn [map app]. rewrite map_app, <- !app_assoc in HO. cbn [map app] in HO. cbn [read_header] in *. destruct (_ || _); [|easy].
        exact (last_newline fuel (addnl (format_line (FBinary big)) :: map addnl (concat (map element_lines (map fst es)))) _ _ _ HO). }
      rewrite ER. cbn [read_elements concat]. pose proof (elements_binary_ok host big es 0 [] []) as EB. destruct G as (_ & _ & G2'). specialize (EB G2'). rewrite firstn_O in EB. rewrite EB.
      destruct (binary_data big es); [easy|]. easy.
    + rewrite firstn_app. replace (k - length hd)%nat with 0%nat by lia. rewrite firstn_O, app_nil_r. apply no_end_never. unfold hd. apply cut_header; auto. fold hd. lia.
Qed.
