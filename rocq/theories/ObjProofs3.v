(* load_obj on whole files. *)
From Coq Require Import Ascii String ZArith Reals Bool List Lia.
From Verif Require Import Base RBase Text TextSpec TextProofs Ply PlyProofs PlyProofs5 Obj ObjSpec ObjProofs ObjProofs2.
Import ListNotations.
Local Open Scope list_scope.
Local Open Scope Z_scope.

Lemma strip_nl l : strip str_space (l ++ [nl]) = strip str_space l.
Proof.
  unfold strip. destruct (drop_split str_space l) as (a & E & Ha). destruct (drop_while str_space l) as [|c t] eqn:Ed.
  - rewrite app_nil_r in E. subst a. assert (G : forall b, Forall (fun c => str_space c = true) b -> drop_while str_space (b ++ [nl]) = []).
    { induction 1 as [|x b Hx Hb IH]; [reflexivity|]. cbn. now rewrite Hx. }
    now rewrite G.
  - assert (Hc : str_space c = false). { clear -Ed. induction l as [|d l IH]; [easy|]. cbn in Ed. destruct (str_space d) eqn:Edd; auto. injection Ed as -> ->. auto. }
    assert (G : drop_while str_space (l ++ [nl]) = (c :: t) ++ [nl]).
    { rewrite E, <- app_assoc. clear -Ha Hc. induction Ha as [|x b Hx Hb IH]; [cbn; now rewrite Hc|]. cbn. now rewrite Hx. }
    rewrite G, rev_app_distr. cbn [rev app drop_while]. change (str_space nl) with true. reflexivity.
Qed.
Definition read (s : pstate) (l : text) : result pstate := obj_line s (strip str_space l).
Lemma obj_line_nil s : obj_line s [] = Ok s.
Proof. reflexivity. Qed.
Lemma lines_one l : one_line l -> lines l = match l with [] => [] | _ => [l] end.
Proof.
  intros H. unfold lines. assert (G : forall cur, lines_from cur l = match cur ++ l with [] => [] | x => [x] end).
  { induction H as [|c l Hc H IH]; intros cur; cbn [lines_from]; [now rewrite app_nil_r; destruct cur|]. rewrite Hc, IH, <- app_assoc. reflexivity. }
  rewrite G. now destruct l.
Qed.
Lemma read_lines ls : Forall one_line ls -> forall s, rfold read (lines (file_of ls)) s = rfold read ls s.
Proof.
  unfold file_of. induction 1 as [|l ls Hl H IH]; intros s; [reflexivity|]. destruct ls as [|l2 ls].
  - cbn [join]. rewrite lines_one by auto. now destruct l.
  - change (join nl (l :: l2 :: ls)) with (l ++ nl :: join nl (l2 :: ls)). unfold lines in *. rewrite lines_from_app by auto. cbn [app]. cbn [rfold]. unfold read at 1 3. rewrite strip_nl.
    destruct (obj_line s (strip str_space l)); cbn [rbind]; [apply IH|reflexivity].
Qed.
Lemma read_items ls is : Forall2 says ls is -> Forall sound is -> forall before s, holds before s -> exists s', rfold read ls s = Ok s' /\ holds (before ++ is) s'.
Proof.
  induction 1 as [|l i ls is Hs H IH]; intros Hu before s Hh; [exists s; now rewrite app_nil_r|]. apply Forall_cons_iff in Hu as [Hi Hu].
  destruct (line_ok before s l i Hh Hs Hi) as (s' & E & Hh'). cbn [rfold]. unfold read at 1. rewrite E. cbn [rbind]. destruct (IH Hu _ _ Hh') as (s2 & E2 & H2). exists s2. split; auto. now rewrite <- app_assoc in H2.
Qed.
Lemma start_holds : holds [] start.
Proof. unfold holds. cbn. repeat split; auto; try constructor; intros []. Qed.
Lemma good_sound is : Forall (fun cs => uniform c_tex cs /\ uniform c_norm cs) (faces_of is) -> Forall sound is.
Proof.
  unfold faces_of. intros H. induction is as [|i is IH]; constructor.
  - destruct i; cbn in *; auto. now apply Forall_cons_iff in H as [H _].
  - apply IH. cbn in H. apply Forall_app in H. tauto.
Qed.
Lemma parse_ok ls is : Forall2 says ls is -> Forall one_line ls -> Forall (fun cs => uniform c_tex cs /\ uniform c_norm cs) (faces_of is) -> exists s, parse_obj (file_of ls) = Ok s /\ holds is s.
Proof. intros H H1 H2. unfold parse_obj. change (fun s l => obj_line s (strip str_space l)) with read. rewrite read_lines by auto. apply (read_items ls is H (good_sound is H2) [] start start_holds). Qed.

Lemma fan_in {A} (cs : list A) tri c : In tri (fan cs) -> In c tri -> In c cs.
Proof.
  destruct cs as [|a rest]; [easy|]. cbn [fan]. intros H Hc. apply in_map_iff in H as ((x & y) & <- & H). pose proof (in_combine_l _ _ _ _ H). pose proof (in_combine_r _ _ _ _ H) as H2.
  cbn in Hc. destruct Hc as [<-|[<-|[<-|[]]]]; [now left|now right|right]. destruct rest; [easy|]. now right.
Qed.
Lemma fan_three {A} (cs : list A) tri : In tri (fan cs) -> exists a b c, tri = [a; b; c].
Proof. destruct cs as [|a rest]; [easy|]. cbn [fan]. intros H. apply in_map_iff in H as ((x & y) & <- & H). cbn. eauto. Qed.
Lemma from_end_position n i : i <> 0 -> from_end (Z.of_nat n) i = position n i.
Proof. intros H. unfold from_end, position. cbv zeta. destruct (Z.ltb_spec 0 i); [destruct (Z.ltb_spec (i - 1) 0), (Z.ltb_spec i 0)|destruct (Z.ltb_spec i 0)]; lia. Qed.
Lemma all_pad_spec row : all_pad row = true <-> Forall (fun i => i = -1) row.
Proof. unfold all_pad. rewrite forallb_forall, Forall_forall. split; intros H x Hx; specialize (H x Hx); [now apply Z.eqb_eq|now apply Z.eqb_eq]. Qed.
Lemma row_positions n p cs tri : uniform p cs -> (forall c, In c cs -> p c <> Some 0) -> In tri (fan cs) -> (exists c, In c tri /\ p c <> Some (-1)) ->
  (if all_pad (map (or_pad p) tri) then map (or_pad p) tri else map (from_end (Z.of_nat n)) (map (or_pad p) tri)) = positions n p tri.
Proof.
  intros Hu H0 Ht (c & Hc & Hcp). destruct Hu as [Hu|Hu].
  - destruct (all_pad (map (or_pad p) tri)) eqn:E.
    + exfalso. apply all_pad_spec in E. rewrite Forall_forall in E. specialize (E (or_pad p c) (in_map _ _ _ Hc)). unfold or_pad in E. assert (Hin : In c cs) by (eapply fan_in; eauto). pose proof (Hu c Hin). destruct (p c); congruence.
    + rewrite map_map. unfold positions. apply map_ext_in. intros d Hd. assert (Hin : In d cs) by (eapply fan_in; eauto). pose proof (Hu d Hin). pose proof (H0 d Hin). unfold or_pad. destruct (p d) as [i|]; [|easy]. apply from_end_position. congruence.
  - assert (E : map (or_pad p) tri = positions n p tri). { unfold positions. apply map_ext_in. intros d Hd. unfold or_pad. rewrite (Hu d); auto. eapply fan_in; eauto. }
    assert (Ep : all_pad (map (or_pad p) tri) = true).
    { apply all_pad_spec. apply Forall_map, Forall_forall. intros d Hd. unfold or_pad. rewrite (Hu d); auto. eapply fan_in; eauto. }
    now rewrite Ep.
Qed.
Definition complains (n : nat) (pad : bool) (row : list Z) : Prop := ~ (pad = true /\ Forall (fun i => i = -1) row) /\ ~ in_range n row.
Lemma in_range_dec n row : existsb (fun i => (Z.of_nat n <=? i) || (i <? 0)) row = true <-> ~ in_range n row.
Proof.
  rewrite existsb_exists. split.
  - intros (i & Hi & H) Hr. unfold in_range in Hr. rewrite Forall_forall in Hr. specialize (Hr i Hi). apply orb_prop in H as [H|H]; [apply Z.leb_le in H|apply Z.ltb_lt in H]; lia.
  - intros H. induction row as [|i row IH]; [exfalso; apply H; constructor|]. destruct ((Z.of_nat n <=? i) || (i <? 0)) eqn:E; [exists i; split; [now left|auto]|].
    apply orb_false_iff in E as [E1 E2]. apply Z.leb_gt in E1. apply Z.ltb_ge in E2. destruct IH as (j & Hj & Hj2); [intros Hr; apply H; constructor; [lia|auto]|]. exists j. split; [now right|auto].
Qed.
Lemma warned_spec rows n pad : snd (format_indices rows (Z.of_nat n) pad) = true <-> exists row, In row (fst (format_indices rows (Z.of_nat n) pad)) /\ complains n pad row.
Proof.
  unfold format_indices. cbn [fst snd]. rewrite existsb_exists. split; intros (row & Hr & H); exists row; (split; [exact Hr|]).
  - apply andb_prop in H as [H1 H2]. apply in_range_dec in H2. split; auto. intros [-> H]. apply all_pad_spec in H. rewrite H in H1. discriminate.
  - destruct H as [H1 H2]. apply in_range_dec in H2. rewrite H2, andb_true_r. destruct pad; [|reflexivity]. cbn [andb]. destruct (all_pad row) eqn:E; [|reflexivity]. exfalso. apply H1. split; auto. now apply all_pad_spec.
Qed.
Lemma tris_in is tri : In tri (tris is) -> exists cs, In cs (faces_of is) /\ In tri (fan cs).
Proof. unfold tris. intros H. apply in_flat_map in H. exact H. Qed.
Lemma load_form materials file s : parse_obj file = Ok s ->
  let nv := Z.of_nat (length (p_verts s)) in let nn := Z.of_nat (length (p_normals s)) in let nt := Z.of_nat (length (p_uvs s)) in
  exists o, load_obj materials file = Ok o /\ o_verts o = p_verts s /\ o_faces o = fst (format_indices (p_fv s) nv false) /\ o_normals_idx o = fst (format_indices (p_fn s) nn true) /\ o_textures_idx o = fst (format_indices (p_ft s) nt true) /\
  o_normals o = (match p_normals s with [] => None | n => Some n end) /\ o_uvs o = (match p_uvs s with [] => None | u => Some u end) /\ o_mtl o = p_mtl s /\
  o_warned o = snd (format_indices (p_fv s) nv false) || snd (format_indices (p_fn s) nn true) || snd (format_indices (p_ft s) nt true) /\
  (o_names o, o_materials_idx o) = match (match p_mtl s with Some f => materials f | None => None end), p_names s with Some (m :: _), [] => ([m], map (Z.max 0) (p_fm s)) | _, names => (names, p_fm s) end.
Proof.
  intros E nv nn nt. unfold load_obj. rewrite E. cbn [rbind]. fold nv nn nt. 
  assert (W : forall rows n, match rows with [] => ([], false) | _ => format_indices rows n true end = format_indices rows n true) by (intros [|r rows] n; reflexivity).
  rewrite !W. destruct (format_indices (p_fv s) nv false), (format_indices (p_fn s) nn true), (format_indices (p_ft s) nt true).
  destruct (match match p_mtl s with Some f => materials f | None => None end with Some (m :: _) => _ | _ => _ end) as [names fm] eqn:Em. eexists. split; [reflexivity|]. cbn. repeat split; auto.
Qed.

Lemma reads materials ls is : Forall2 says ls is -> Forall one_line ls -> Forall good_face (faces_of is) ->
  exists o, load_obj materials (file_of ls) = Ok o /\ o_verts o = verts_of is /\ o_uvs o = given (uvs_of is) /\ o_normals o = given (normals_of is) /\
  o_faces o = map (map (fun c => position (length (verts_of is)) (c_vert c))) (flat_map fan (faces_of is)) /\
  o_textures_idx o = map (positions (length (uvs_of is)) c_tex) (flat_map fan (faces_of is)) /\
  o_normals_idx o = map (positions (length (normals_of is)) c_norm) (flat_map fan (faces_of is)) /\ o_mtl o = last_lib is.
Proof.
  intros H H1 H2. destruct (parse_ok ls is H H1) as (s & E & A1 & A2 & A3 & A4 & A5 & A6 & A7 & A8 & A9 & A10 & A11).
  { eapply Forall_impl; [|exact H2]. intros cs (? & ? & _). auto. }
  destruct (load_form materials _ s E) as (o & Eo & B1 & B2 & B3 & B4 & B5 & B6 & B7 & B8 & B9). exists o. split; [exact Eo|].
  rewrite B1, B2, B3, B4, B5, B6, B7, A1, A2, A3, A4, A5, A6, A11. unfold format_indices. cbn [fst andb]. rewrite !map_map. change (flat_map fan (faces_of is)) with (tris is).
  assert (G : forall tri, In tri (tris is) -> exists cs, In tri (fan cs) /\ good_face cs). { intros tri Ht. apply tris_in in Ht as (cs & Hc & Ht). rewrite Forall_forall in H2. eauto. }
  repeat split.
  - now destruct (uvs_of is).
  - now destruct (normals_of is).
  - apply map_ext_in. intros tri Ht. apply G in Ht as (cs & Ht & (_ & _ & Hz & _)). rewrite map_map. apply map_ext_in. intros c Hc. apply from_end_position. apply (Hz c). eapply fan_in; eauto.
  - apply map_ext_in. intros tri Ht. apply G in Ht as (cs & Ht & (U & _ & Hz & Hp)). apply (row_positions _ c_tex cs); auto; [intros c Hc; now apply Hz|now apply (Hp tri)].
  - apply map_ext_in. intros tri Ht. apply G in Ht as (cs & Ht & (_ & U & Hz & Hp)). apply (row_positions _ c_norm cs); auto; [intros c Hc; now apply Hz|now apply (Hp tri)].
Qed.
Lemma warns materials ls is o : Forall2 says ls is -> Forall one_line ls -> Forall (fun cs => uniform c_tex cs /\ uniform c_norm cs) (faces_of is) -> load_obj materials (file_of ls) = Ok o ->
  (o_warned o = true <->
   (exists row, In row (o_faces o) /\ ~ in_range (length (verts_of is)) row) \/
   (exists row, In row (o_textures_idx o) /\ row <> [-1; -1; -1] /\ ~ in_range (length (uvs_of is)) row) \/
   (exists row, In row (o_normals_idx o) /\ row <> [-1; -1; -1] /\ ~ in_range (length (normals_of is)) row)).
Proof.
  intros H H1 H2 Ho. destruct (parse_ok ls is H H1 H2) as (s & E & A1 & A2 & A3 & A4 & A5 & A6 & A7 & A8 & A9 & A10 & A11).
  destruct (load_form materials _ s E) as (o' & Eo & B1 & B2 & B3 & B4 & B5 & B6 & B7 & B8 & B9). rewrite Ho in Eo. injection Eo as <-.
  rewrite B8, !orb_true_iff, !warned_spec, <- B2, <- B3, <- B4, A1, A2, A3.
  assert (P : forall n row, complains n false row <-> ~ in_range n row). { intros n row. unfold complains. split; [tauto|]. intros C. split; auto. intros []. discriminate. }
  assert (Q : forall rows m n, (forall row, In row rows -> exists a b c, row = [a; b; c]) -> (exists row, In row (fst (format_indices rows m true)) /\ complains n true row) <-> (exists row, In row (fst (format_indices rows m true)) /\ row <> [-1; -1; -1] /\ ~ in_range n row)).
  { intros rows m n H3. assert (H4 : forall row, In row (fst (format_indices rows m true)) -> exists a b c, row = [a; b; c]).
    { unfold format_indices. cbn [fst]. intros row Hr. apply in_map_iff in Hr as (r & <- & Hr). apply H3 in Hr as (a & b & c & ->). destruct (true && _); cbn; eauto. }
    split; intros (row & Hr & C); exists row; (split; [exact Hr|]); destruct C as [C1 C2]; (split; [|exact C2]).
    - intros ->. apply C1. split; auto; repeat constructor.
    - intros [_ Hp]. apply C1. apply H4 in Hr as (a & b & c & ->). rewrite !Forall_cons_iff in Hp. destruct Hp as (-> & -> & -> & _). reflexivity. }
  assert (T3 : forall p row, In row (map (map (or_pad p)) (tris is)) -> exists a b c, row = [a; b; c]).
  { intros p row Hr. apply in_map_iff in Hr as (r & <- & Hr). apply tris_in in Hr as (cs & _ & Hr). apply fan_three in Hr as (a & b & c & ->). cbn. eauto. }
  rewrite B3, B4, A5, A6. rewrite !Q by apply T3. split.
  - intros [[(row & Hr & C)|C]|C]; [left; exists row; split; [exact Hr|exact (proj1 (P _ _) C)]|right; right; exact C|right; left; exact C].
  - intros [(row & Hr & C)|[C|C]]; [left; left; exists row; split; [exact Hr|exact (proj2 (P _ _) C)]|right; exact C|left; right; exact C].
Qed.
Lemma draws materials ls is o : Forall2 says ls is -> Forall one_line ls -> Forall (fun cs => uniform c_tex cs /\ uniform c_norm cs) (faces_of is) -> load_obj materials (file_of ls) = Ok o ->
  (uses is <> [] \/ (forall f m ms, last_lib is = Some f -> materials f <> Some (m :: ms)) ->
   NoDup (o_names o) /\ (forall n, In n (o_names o) <-> In n (uses is)) /\ Forall2 (material_is (o_names o)) (materials_from None is) (o_materials_idx o)) /\
  (forall f m ms, uses is = [] -> last_lib is = Some f -> materials f = Some (m :: ms) -> o_names o = [m] /\ o_materials_idx o = map (fun _ => 0) (flat_map fan (faces_of is))).
Proof.
  intros H H1 H2 Ho. destruct (parse_ok ls is H H1 H2) as (s & E & A1 & A2 & A3 & A4 & A5 & A6 & A7 & A8 & A9 & A10 & A11).
  destruct (load_form materials _ s E) as (o' & Eo & B1 & B2 & B3 & B4 & B5 & B6 & B7 & B8 & B9). rewrite Ho in Eo. injection Eo as <-. rewrite A11 in B9. split.
  - intros C. assert (N : (o_names o, o_materials_idx o) = (p_names s, p_fm s)).
    { rewrite B9. destruct C as [C|C].
      - destruct (p_names s) as [|n ns] eqn:En; [|destruct (last_lib is) as [f|]; [destruct (materials f) as [[|]|]|]; reflexivity]. destruct (uses is) as [|u us]; [easy|]. exfalso. apply (A9 u). now left.
      - destruct (last_lib is) as [f|]; [|reflexivity]. destruct (materials f) as [[|m ms]|] eqn:Em; try reflexivity. exfalso. now apply (C f m ms). }
    apply pair_equal_spec in N as [-> ->]. auto.
  - intros f m ms Hu Hf Hm. rewrite Hf, Hm in B9. assert (En : p_names s = []). { destruct (p_names s) as [|n ns]; [reflexivity|]. exfalso. assert (I : In n (uses is)) by (apply A9; now left). now rewrite Hu in I. }
    rewrite En in B9. apply pair_equal_spec in B9 as [-> ->]. split; [reflexivity|]. rewrite En in A7. clear -A7 Hu.
    assert (G : forall is cur l, uses is = [] -> cur = None -> Forall2 (material_is []) (materials_from cur is) l -> map (Z.max 0) l = map (fun _ => 0) (flat_map fan (faces_of is))).
    { clear. induction is as [|i is IH]; intros cur l Hu -> F; [inversion F; reflexivity|]. unfold uses, faces_of in *. cbn [flat_map] in *. apply app_eq_nil in Hu as [Hu1 Hu]. destruct i; cbn [materials_from app flat_map] in *; try (now apply (IH None)).
      apply Forall2_app_inv_l in F as (l1 & l2 & F1 & F2 & ->). rewrite !map_app. f_equal; [|now apply (IH None)].
      clear -F1. revert l1 F1. induction (fan cs) as [|t ts IHt]; intros l1 F; inversion F; subst; [reflexivity|]. cbn. rewrite IHt by auto. f_equal. cbn in H1. lia. }
    now apply (G is None).
Qed.

(* ---- files that are refused ---- *)
Lemma refused ls l rest is s e : Forall2 says ls is -> Forall one_line (ls ++ l :: rest) -> Forall (fun cs => uniform c_tex cs /\ uniform c_norm cs) (faces_of is) ->
  (forall s, obj_line s (strip str_space l) = Fail e) -> load_obj s (file_of (ls ++ l :: rest)) = Fail e.
Proof.
  intros H H1 H2 Hl. unfold load_obj, parse_obj. change (fun s l => obj_line s (strip str_space l)) with read. rewrite read_lines by auto. rewrite rfold_app.
  destruct (read_items ls is H (good_sound is H2) [] start start_holds) as (s' & -> & _). cbn [rbind rfold]. unfold read at 1. now rewrite Hl.
Qed.
Lemma line_mixed cs l s : cs <> [] -> keyword_line "f" (map show_corner cs) l -> ~ (uniform c_tex cs /\ uniform c_norm cs) -> obj_line s (strip str_space l) = Fail EValue.
Proof.
  intros Hne K Hm. apply keyword_strip in K as [(r & E) Et]; [|destruct cs; easy|lit].
  unfold obj_line. rewrite Et, E. change (starts "mtllib" (str "f" ++ sp :: r)) with false. cbv iota. change (text_eqb (str "f") (str "usemtl")) with false. cbv iota. change (starts "v " (str "f" ++ sp :: r)) with false. cbv iota.
  change (starts "vt " (str "f" ++ sp :: r)) with false. cbv iota. change (starts "vn " (str "f" ++ sp :: r)) with false. cbv iota. change (starts "f " (str "f" ++ sp :: r)) with true. cbv iota.
  cbn [tl]. rewrite parse_face_mixed; auto. intros p. apply uniform_dec.
Qed.
Lemma line_short k (n : nat) xs l s : (k = "v" /\ n = 3 \/ k = "vt" /\ n = 2 \/ k = "vn" /\ n = 3)%nat%string -> (0 < length xs < n)%nat -> Forall readable xs -> keyword_line k (map show_dec xs) l -> obj_line s (strip str_space l) = Fail EValue.
Proof.
  intros Hk Hn Hr K. assert (F : rmap float_of (firstn n (map show_dec xs)) = Ok xs).
  { rewrite firstn_all2 by (rewrite map_length; lia). rewrite <- (app_nil_r (map show_dec xs)). rewrite <- (firstn_all2 (n := length xs) (map show_dec xs ++ [])) by (rewrite app_nil_r, map_length; lia). now apply floats_ok. }
  assert (Hx : map show_dec xs <> []) by (destruct xs; [cbn in Hn; lia|easy]). unfold obj_line.
  destruct Hk as [[-> ->]|[[-> ->]|[-> ->]]]; (apply keyword_strip in K as [(r & E) Et]; [|auto|lit]); rewrite Et, E; cbn [tl].
  - change (starts "mtllib" (str "v" ++ sp :: r)) with false. cbv iota. change (text_eqb (str "v") (str "usemtl")) with false. cbv iota. change (starts "v " (str "v" ++ sp :: r)) with true. cbv iota. rewrite F. cbn [rbind]. destruct (Nat.eqb_spec (length xs) 3); [lia|reflexivity].
  - change (starts "mtllib" (str "vt" ++ sp :: r)) with false. cbv iota. change (text_eqb (str "vt") (str "usemtl")) with false. cbv iota. change (starts "v " (str "vt" ++ sp :: r)) with false. cbv iota. change (starts "vt " (str "vt" ++ sp :: r)) with true. cbv iota. rewrite F. cbn [rbind]. destruct (Nat.eqb_spec (length xs) 2); [lia|reflexivity].
  - change (starts "mtllib" (str "vn" ++ sp :: r)) with false. cbv iota. change (text_eqb (str "vn") (str "usemtl")) with false. cbv iota. change (starts "v " (str "vn" ++ sp :: r)) with false. cbv iota. change (starts "vt " (str "vn" ++ sp :: r)) with false. cbv iota. change (starts "vn " (str "vn" ++ sp :: r)) with true. cbv iota. rewrite F. cbn [rbind]. destruct (Nat.eqb_spec (length xs) 3); [lia|reflexivity].
Qed.
