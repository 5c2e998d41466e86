(* Reading whole files. *)
From Coq Require Import Ascii String ZArith Reals Bool List Lia.
From Verif Require Import Base RBase Text TextSpec TextProofs Ply PlyProofs PlyProofs5 Obj ObjSpec ObjProofs.
Import ListNotations.
Local Open Scope list_scope.
Local Open Scope Z_scope.

Definition tris (is : list item) : list (list corner) := flat_map fan (faces_of is).
Fixpoint last_use (cur : option text) (is : list item) : option text := match is with [] => cur | Use n :: is => last_use (Some n) is | _ :: is => last_use cur is end.
Definition holds (is : list item) (s : pstate) : Prop :=
  p_verts s = verts_of is /\ p_normals s = normals_of is /\ p_uvs s = uvs_of is /\
  p_fv s = map (map c_vert) (tris is) /\ p_fn s = map (map (or_pad c_norm)) (tris is) /\ p_ft s = map (map (or_pad c_tex)) (tris is) /\
  Forall2 (material_is (p_names s)) (materials_from None is) (p_fm s) /\ NoDup (p_names s) /\ (forall n, In n (p_names s) <-> In n (uses is)) /\
  material_is (p_names s) (last_use None is) (p_cur s) /\ p_mtl s = last_lib is.
Lemma materials_snoc is i : forall cur, materials_from cur (is ++ [i]) = materials_from cur is ++ materials_from (last_use cur is) [i].
Proof. induction is as [|j is IH]; intros cur; [reflexivity|]. destruct j; cbn [app materials_from last_use]; try apply IH. now rewrite IH, <- app_assoc. Qed.
Lemma last_use_snoc is i : forall cur, last_use cur (is ++ [i]) = last_use (last_use cur is) [i].
Proof. induction is as [|j is IH]; intros cur; [reflexivity|]. destruct j; cbn [app last_use]; apply IH. Qed.
Lemma material_more names more o i : material_is names o i -> material_is (names ++ more) o i.
Proof. destruct o as [n|]; cbn; auto. intros [H0 H]. split; auto. rewrite nth_error_app1; auto. apply nth_error_Some. congruence. Qed.
Lemma materials_more names more a b : Forall2 (material_is names) a b -> Forall2 (material_is (names ++ more)) a b.
Proof. induction 1; constructor; auto. now apply material_more. Qed.
Lemma index_of_some w l i : index_of w l = Some i -> nth_error l i = Some w.
Proof. revert i. induction l as [|x l IH]; intros i H; [easy|]. cbn in H. destruct (text_eqb x w) eqn:E; [injection H as <-; apply text_eqb_eq in E; now subst|]. destruct (index_of w l) as [j|]; [|easy]. injection H as <-. now apply IH. Qed.
Lemma index_of_none w l : index_of w l = None -> ~ In w l.
Proof. induction l as [|x l IH]; intros H; [easy|]. cbn in H. destruct (text_eqb x w) eqn:E; [easy|]. intros [->|Hi]; [now rewrite text_eqb_refl in E|]. destruct (index_of w l); [easy|]. now apply IH. Qed.
Ltac lit := split; [discriminate|repeat constructor].
Lemma float_ok x : readable x -> float_of (show_dec x) = Ok x.
Proof. intros H. unfold float_of, show_dec. rewrite parse_float_print. f_equal. destruct x as [m e]. unfold readable in H. cbn in *. f_equal. lia. Qed.
Lemma floats_ok xs more n : length xs = n -> Forall readable xs -> rmap float_of (firstn n (map show_dec xs ++ more)) = Ok xs.
Proof.
  intros <- H. rewrite firstn_app, map_length, Nat.sub_diag, firstn_O, app_nil_r, firstn_all2 by (rewrite map_length; auto).
  induction H as [|x xs Hx H IH]; [reflexivity|]. cbn. rewrite float_ok by auto. cbn. now rewrite IH.
Qed.
Lemma tris_snoc is i : tris (is ++ [i]) = tris is ++ match i with Face cs => fan cs | _ => [] end.
Proof. unfold tris, faces_of. rewrite flat_map_app. rewrite flat_map_app. destruct i; cbn; now rewrite ?app_nil_r. Qed.
Lemma keyword_nonempty k ws l (P : ws <> []) : keyword_line k ws l -> word (str k) -> (exists r, strip str_space l = str k ++ sp :: r) /\ toks (strip str_space l) = str k :: ws.
Proof. intros H W. now apply keyword_strip. Qed.
Lemma NoDup_app_snoc' {A} (l : list A) x : NoDup l -> ~ In x l -> NoDup (l ++ [x]).
Proof. intros H Hx. rewrite <- (rev_involutive (l ++ [x])). apply NoDup_rev. rewrite rev_app_distr. cbn. constructor; [now rewrite <- in_rev|now apply NoDup_rev]. Qed.
Lemma strip_head l : strip str_space l = [] \/ str_space (hd nl (strip str_space l)) = false.
Proof.
  unfold strip. destruct (drop_while str_space l) as [|c t] eqn:E; [now left|]. right. assert (Hc : str_space c = false).
  { clear -E. induction l as [|d l IH]; [easy|]. cbn in E. destruct (str_space d) eqn:Ed; auto. injection E as -> ->. auto. }
  cbn [rev]. rewrite drop_app by exact Hc. now rewrite rev_app_distr.
Qed.
Lemma toks_nil l : toks l = [] -> blanks l.
Proof.
  unfold toks. assert (G : forall l cur, toks_from cur l = [] -> cur = [] /\ blanks l).
  { clear. induction l as [|c l IH]; intros cur H; cbn in H; [destruct cur; [auto|easy]|]. destruct (str_space c) eqn:E.
    - apply app_eq_nil in H as [H1 H2]. destruct cur; [|easy]. split; auto. constructor; auto. now apply (IH []).
    - apply IH in H as [H _]. destruct cur; easy. }
  intros H. now apply G in H.
Qed.
Lemma one_tok l w : word w -> toks l = [w] -> strip str_space l = w.
Proof.
  intros [W0 W] H. destruct (drop_split str_space l) as (a & E & Ha). rewrite E, strip_blanks by auto. rewrite E in H. unfold toks in H. rewrite toks_blanks in H by auto.
  destruct (drop_while str_space l) as [|c t] eqn:Ed; [easy|]. assert (Hc : str_space c = false).
  { clear -Ed. induction l as [|d l IH]; [easy|]. cbn in Ed. destruct (str_space d) eqn:Edd; auto. injection Ed as -> ->. auto. }
  assert (G : forall t cur, cur <> [] -> toks_from cur t = [w] -> exists u b, t = u ++ b /\ w = cur ++ u /\ blanks b).
  { clear. induction t as [|c t IH]; intros cur Hc H; cbn in H.
    - destruct cur; [easy|]. injection H as <-. exists [], []. split; [reflexivity|split; [now rewrite app_nil_r|constructor]].
    - destruct (str_space c) eqn:E.
      + destruct cur as [|x cur]; [easy|]. cbn in H. injection H as <- H. exists [], (c :: t). split; [reflexivity|split; [now rewrite app_nil_r|constructor; auto; now apply toks_nil]].
      + apply IH in H as (u & b & -> & -> & Hb); [|now destruct cur]. exists (c :: u), b. rewrite <- app_assoc. repeat split; auto. }
  cbn [toks_from] in H. rewrite Hc in H. cbn [app] in H. apply G in H as (u & b & -> & -> & Hb); [|easy]. change (c :: u ++ b) with ((c :: u) ++ b).
  rewrite strip_keeps.
  - replace (drop_while str_space (rev b)) with (@nil ascii); [now rewrite app_nil_r|]. apply Forall_rev in Hb. clear -Hb. induction Hb as [|x q Hx Hb IH]; [reflexivity|]. cbn. now rewrite Hx.
  - easy.
  - exact Hc.
  - apply Forall_rev in W. cbn [app] in *. destruct (rev (c :: u)) as [|z q] eqn:Er; [apply (f_equal (@length _)) in Er; rewrite rev_length in Er; easy|]. now apply Forall_cons_iff in W.
Qed.
Definition sound (i : item) : Prop := match i with Face cs => uniform c_tex cs /\ uniform c_norm cs | _ => True end.
Lemma line_ok is s l i : holds is s -> says l i -> sound i -> exists s', obj_line s (strip str_space l) = Ok s' /\ holds (is ++ [i]) s'.
Proof.
  intros (H1 & H2 & H3 & H4 & H5 & H6 & H7 & H8 & H9 & H10 & H11) Hs Hsound.
  assert (KEEP : forall vs ns us tv tn tx fm,
     vs = verts_of [i] -> ns = normals_of [i] -> us = uvs_of [i] -> uses [i] = [] -> libs [i] = [] ->
     let f := match i with Face cs => fan cs | _ => [] end in
     tv = map (map c_vert) f -> tn = map (map (or_pad c_norm)) f -> tx = map (map (or_pad c_tex)) f -> fm = map (fun _ => p_cur s) f ->
     holds (is ++ [i]) (PS (p_verts s ++ vs) (p_normals s ++ ns) (p_uvs s ++ us) (p_fv s ++ tv) (p_fn s ++ tn) (p_ft s ++ tx) (p_fm s ++ fm) (p_names s) (p_mtl s) (p_cur s))).
  { intros vs ns us tv tn tx fm -> -> -> Hu Hl f -> -> -> ->. unfold holds. cbn [p_verts p_normals p_uvs p_fv p_fn p_ft p_fm p_names p_mtl p_cur].
    rewrite H1, H2, H3, H4, H5, H6, H11. unfold verts_of, normals_of, uvs_of. rewrite !flat_map_app, tris_snoc, !map_app. fold f.
    rewrite materials_snoc, last_use_snoc. assert (Hlu : last_use (last_use None is) [i] = last_use None is) by (destruct i; try reflexivity; discriminate).
    repeat split; auto.
    - apply Forall2_app; auto. unfold f. destruct i; cbn [materials_from app]; try constructor. rewrite app_nil_r. clear -H10. induction (fan cs); cbn; constructor; auto.
    - intros Hn. unfold uses. rewrite flat_map_app. apply in_app_iff. left. now apply H9.
    - intros Hn. unfold uses in Hn. rewrite flat_map_app in Hn. apply in_app_iff in Hn as [Hn|Hn]; [now apply H9|]. unfold uses in Hu. rewrite Hu in Hn. easy.
    - now rewrite Hlu.
    - unfold last_lib, libs. rewrite flat_map_app. unfold libs in Hl. rewrite Hl, app_nil_r. reflexivity. }
  assert (KEEP' : forall s', s' = PS (p_verts s ++ verts_of [i]) (p_normals s ++ normals_of [i]) (p_uvs s ++ uvs_of [i]) (p_fv s ++ map (map c_vert) match i with Face cs => fan cs | _ => [] end)
      (p_fn s ++ map (map (or_pad c_norm)) match i with Face cs => fan cs | _ => [] end) (p_ft s ++ map (map (or_pad c_tex)) match i with Face cs => fan cs | _ => [] end)
      (p_fm s ++ map (fun _ => p_cur s) match i with Face cs => fan cs | _ => [] end) (p_names s) (p_mtl s) (p_cur s) -> uses [i] = [] -> libs [i] = [] -> holds (is ++ [i]) s').
  { intros s' -> Hu Hl. apply KEEP; auto. }
  clear KEEP. destruct i as [xyz|uv|xyz|cs|name|name|]; cbn [says] in Hs.
  - destruct Hs as (Hl & Hr & more & K). apply keyword_strip in K as [(r & E) Et]; [|destruct xyz; easy|lit].
    unfold obj_line. rewrite Et, E. change (starts "mtllib" (str "v" ++ sp :: r)) with false. cbv iota. change (text_eqb (str "v") (str "usemtl")) with false. cbv iota. change (starts "v " (str "v" ++ sp :: r)) with true. cbv iota.
    cbn [tl]. rewrite floats_ok by auto. cbn [rbind]. rewrite Hl. cbn [Nat.eqb negb]. eexists. split; [reflexivity|]. apply KEEP'; auto. cbn. now rewrite !app_nil_r.
  - destruct Hs as (Hl & Hr & more & K). apply keyword_strip in K as [(r & E) Et]; [|destruct uv; easy|lit].
    unfold obj_line. rewrite Et, E. change (starts "mtllib" (str "vt" ++ sp :: r)) with false. cbv iota. change (text_eqb (str "vt") (str "usemtl")) with false. cbv iota. change (starts "v " (str "vt" ++ sp :: r)) with false. cbv iota.
    change (starts "vt " (str "vt" ++ sp :: r)) with true. cbv iota.
    cbn [tl]. rewrite floats_ok by auto. cbn [rbind]. rewrite Hl. cbn [Nat.eqb negb]. eexists. split; [reflexivity|]. apply KEEP'; auto. cbn. now rewrite !app_nil_r.
  - destruct Hs as (Hl & Hr & more & K). apply keyword_strip in K as [(r & E) Et]; [|destruct xyz; easy|lit].
    unfold obj_line. rewrite Et, E. change (starts "mtllib" (str "vn" ++ sp :: r)) with false. cbv iota. change (text_eqb (str "vn") (str "usemtl")) with false. cbv iota. change (starts "v " (str "vn" ++ sp :: r)) with false. cbv iota.
    change (starts "vt " (str "vn" ++ sp :: r)) with false. cbv iota. change (starts "vn " (str "vn" ++ sp :: r)) with true. cbv iota.
    cbn [tl]. rewrite floats_ok by auto. cbn [rbind]. rewrite Hl. cbn [Nat.eqb negb]. eexists. split; [reflexivity|]. apply KEEP'; auto. cbn. now rewrite !app_nil_r.
  - destruct Hs as (Hne & K). apply keyword_strip in K as [(r & E) Et]; [|destruct cs; easy|lit].
    unfold obj_line. rewrite Et, E. change (starts "mtllib" (str "f" ++ sp :: r)) with false. cbv iota. change (text_eqb (str "f") (str "usemtl")) with false. cbv iota. change (starts "v " (str "f" ++ sp :: r)) with false. cbv iota.
    change (starts "vt " (str "f" ++ sp :: r)) with false. cbv iota. change (starts "vn " (str "f" ++ sp :: r)) with false. cbv iota. change (starts "f " (str "f" ++ sp :: r)) with true. cbv iota.
    cbn [tl]. destruct Hsound as [S1 S2]. rewrite parse_face_ok by auto. cbn [rbind]. eexists. split; [reflexivity|]. apply KEEP'; auto. cbn. now rewrite !app_nil_r, map_map.
  - destruct Hs as (more & K). apply keyword_strip in K as [(r & E) Et]; [|easy|lit]. clear KEEP'.
    unfold obj_line. rewrite Et, E. change (starts "mtllib" (str "usemtl" ++ sp :: r)) with false. cbv iota. change (text_eqb (str "usemtl") (str "usemtl")) with true. cbv iota.
    assert (NOF : verts_of (is ++ [Use name]) = verts_of is /\ normals_of (is ++ [Use name]) = normals_of is /\ uvs_of (is ++ [Use name]) = uvs_of is /\ tris (is ++ [Use name]) = tris is /\ last_lib (is ++ [Use name]) = last_lib is).
    { unfold last_lib, verts_of, normals_of, uvs_of, libs. rewrite !flat_map_app, tris_snoc. cbn. now rewrite !app_nil_r. }
    destruct NOF as (N1 & N2 & N3 & N4 & N5). destruct (index_of name (p_names s)) as [k|] eqn:Ei.
    + eexists. split; [reflexivity|]. apply index_of_some in Ei. unfold holds. cbn [p_verts p_normals p_uvs p_fv p_fn p_ft p_fm p_names p_mtl p_cur]. rewrite N1, N2, N3, N4, N5, materials_snoc, last_use_snoc. cbn [materials_from last_use]. rewrite app_nil_r.
      repeat split; auto.
      * intros Hn. unfold uses. rewrite flat_map_app, in_app_iff. left. now apply H9.
      * intros Hn. unfold uses in Hn. rewrite flat_map_app, in_app_iff in Hn. destruct Hn as [Hn|[<-|[]]]; [now apply H9|]. eapply nth_error_In; eauto.
      * lia.
      * now rewrite Nat2Z.id.
    + eexists. split; [reflexivity|]. apply index_of_none in Ei. unfold holds. cbn [p_verts p_normals p_uvs p_fv p_fn p_ft p_fm p_names p_mtl p_cur]. rewrite N1, N2, N3, N4, N5, materials_snoc, last_use_snoc. cbn [materials_from last_use]. rewrite app_nil_r.
      repeat split; auto.
      * now apply materials_more.
      * apply NoDup_app_snoc'; auto.
      * intros Hn. unfold uses. rewrite flat_map_app, in_app_iff. apply in_app_iff in Hn as [Hn|Hn]; [left; now apply H9|right; exact Hn].
      * intros Hn. unfold uses in Hn. rewrite flat_map_app, in_app_iff in Hn. apply in_app_iff. destruct Hn as [Hn|Hn]; [left; now apply H9|now right].
      * lia.
      * rewrite Nat2Z.id, nth_error_app2, Nat.sub_diag by lia. reflexivity.
  - destruct Hs as (Hw & K). pose proof K as (b & r0 & El & Hb & Hsp). apply keyword_strip in K as [(r & E) Et]; [|easy|lit]. clear KEEP'.
    unfold obj_line. rewrite Et, E. change (starts "mtllib" (str "mtllib" ++ sp :: r)) with true. cbv iota. eexists. split; [reflexivity|].
    assert (Er : strip str_space (skipn (length (str "mtllib")) (str "mtllib" ++ sp :: r)) = name).
    { rewrite skipn_app, skipn_all, Nat.sub_diag. cbn [app skipn]. 
      assert (Hr : toks r = [name]). { rewrite E in Et. unfold toks in Et. rewrite (toks_word (str "mtllib")) in Et by repeat constructor. cbn [app toks_from] in Et. change (str_space sp) with true in Et. cbv iota in Et. cbn [flush app] in Et. injection Et. auto. }
      apply one_tok; auto. }
    rewrite Er. unfold holds. cbn [p_verts p_normals p_uvs p_fv p_fn p_ft p_fm p_names p_mtl p_cur]. rewrite materials_snoc, last_use_snoc. cbn [materials_from last_use]. rewrite app_nil_r.
    unfold verts_of, normals_of, uvs_of, uses, last_lib, libs. rewrite !flat_map_app, tris_snoc. cbn [flat_map app]. rewrite !app_nil_r. rewrite rev_app_distr. cbn [rev app].
    repeat split; auto; apply H9.
  - destruct Hs as (ws & Hsp & Hw). apply spaced_toks in Hsp. rewrite <- toks_strip in Hsp. unfold obj_line. rewrite Hsp.
    assert (Hh : strip str_space l = [] \/ str_space (hd nl (strip str_space l)) = false) by apply strip_head.
    assert (M : starts "mtllib" (strip str_space l) = false).
    { destruct (starts "mtllib" (strip str_space l)) eqn:Em; [|reflexivity]. destruct Hh as [Hh|Hh]; [rewrite Hh in Em; discriminate|]. apply starts_mtllib in Em as (w & ws' & E1 & E2); auto. rewrite E1 in Hsp. subst ws. now destruct Hw. }
    assert (N : forall k, In (str k) [str "v"; str "vt"; str "vn"; str "f"; str "usemtl"] -> word (str k) -> starts (k ++ " ") (strip str_space l) = false).
    { intros k Hk Wk. destruct (starts (k ++ " ") (strip str_space l)) eqn:Em; [|reflexivity]. apply starts_word in Em as (ws' & E1); auto. rewrite E1 in Hsp. subst ws. now destruct Hw. }
    rewrite M. replace (match ws with w :: _ => text_eqb w (str "usemtl") | [] => false end) with false.
    2: { destruct ws as [|w ws]; [reflexivity|]. symmetry. apply text_eqb_neq. intros ->. apply (proj1 Hw). cbn. tauto. }
    change "v "%string with ("v" ++ " ")%string. change "vt "%string with ("vt" ++ " ")%string. change "vn "%string with ("vn" ++ " ")%string. change "f "%string with ("f" ++ " ")%string.
    rewrite !N by first [lit|cbn; tauto]. eexists. split; [reflexivity|]. apply KEEP'; auto. cbn. rewrite !app_nil_r. now destruct s.
Qed.
