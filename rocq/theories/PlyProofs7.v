(* Reading back what was written. *)
From Coq Require Import Ascii String ZArith NArith Reals Bool List Permutation Lia Lra.
From Verif Require Import Base RBase Text TextSpec TextProofs Ply PlySpec PlyProofs PlyProofs2 PlyProofs3 PlyProofs4 PlyProofs5 PlyProofs6.
Import ListNotations.
Local Open Scope list_scope.
Local Open Scope Z_scope.

Definition text_cell (d : nat) (x : f32) : num := Decimal {| man := fixed d (f32_value x); exp := Z.of_nat d |}.
Definition text_cells (d : nat) (as_bytes : bool) : f32 -> num := if as_bytes then fun x => Whole (Z.of_N (color_byte x)) else text_cell d.
Lemma shown_cell d x : print_real d (f32_value x) = shown (text_cell d x).
Proof. unfold text_cell, shown, print_real. cbn [man exp]. now rewrite Nat2Z.id. Qed.
Lemma f2_map {A B C} (P : A -> B -> Prop) (f : A -> C) (g : B -> C) la lb : (forall a b, P a b -> f a = g b) -> Forall2 P la lb -> map f la = map g lb.
Proof. intros H. induction 1 as [|a b la lb Hab _ IH]; [reflexivity|]. cbn. now rewrite (H _ _ Hab), IH. Qed.
Lemma save_text host verts faces normals colors dp as_bytes : writable verts faces normals colors ->
  save_ply_data host verts faces normals colors true dp as_bytes = Ok (text_file (written (text_cell (places dp)) (text_cells (places dp) as_bytes) as_bytes verts faces normals colors)).
Proof.
  intros W. destruct (guards _ _ _ _ W) as (g1 & g2 & g3 & g4 & g5 & g6). unfold save_ply_data. rewrite g1, g2, g3, g4. unfold places. set (d := match dp with Some d => d | None => 6%nat end).
  pose proof (header_same host true as_bytes verts faces normals colors (text_cell d) (text_cells d as_bytes)) as Hh. unfold some in Hh. cbv zeta.
  match goal with |- context [header_lines ?a1 ?a2 ?a3 ?a4 ?a5 ?a6 ?a7] => replace (header_lines a1 a2 a3 a4 a5 a6 a7) with (the_header FAscii (map fst (written (text_cell (places dp)) (text_cells (places dp) as_bytes) as_bytes verts faces normals colors))) by (unfold places; fold d; rewrite <- Hh; destruct verts, faces; reflexivity) end. clear Hh.
  unfold places. fold d.
  destruct verts as [|v verts].
  - unfold text_file, unlines. replace (concat (map (fun er => map shown_row (snd er)) (written (text_cell d) (text_cells d as_bytes) as_bytes [] faces normals colors))) with (@nil text); [cbn [map concat]; now rewrite app_nil_r|].
    unfold written. cbn [map concat fst snd]. rewrite rows_of_nil. destruct faces; reflexivity.
  - rewrite g5, g6. rewrite rows_left. unfold text_file. f_equal. fold (unlines (the_header FAscii (map fst (written (text_cell d) (text_cells d as_bytes) as_bytes (v :: verts) faces normals colors)))). f_equal.
    unfold written. cbn [map concat fst snd e_props]. unfold unlines. rewrite map_app, concat_app. f_equal.
    + rewrite map_map. f_equal. eapply (f2_map (fun t r => t = concat (map shown_datum r))); [intros a b ->; reflexivity|].
      destruct W as (Gv & Gf & Gn & Gc). apply (blocks (fun p t r => t = concat (map shown_datum r)) _ _ _ _ as_bytes); auto.
      * intros p q a b c e -> ->. now rewrite map_app, concat_app.
      * intros n1 n2 n3 a b c _ _ _. cbn [map concat shown_datum app]. now rewrite !shown_cell.
      * intros a b c _ _ _. unfold text_cells. destruct as_bytes; cbn [map concat shown_datum app]; [reflexivity|now rewrite !shown_cell].
    + destruct faces as [f|]; [|reflexivity]. cbn [map concat fst snd e_props]. rewrite app_nil_r, !map_map. f_equal. destruct W as (_ & Gf & _). cbn in Gf. apply map_ext_in. intros fc Hfc.
      rewrite Forall_forall in Gf. destruct (Gf _ Hfc) as [Hl _]. unfold shown_row, line_of. cbn [map concat shown_datum]. rewrite app_nil_r, map_length, Hl, map_map. reflexivity.
Qed.

(* ---- the written content is good ---- *)
Lemma vprops_nodup ab n c : NoDup (map p_name (vprops ab n c)).
Proof. destruct ab, n, c; cbn; repeat constructor; cbn; intuition discriminate. Qed.
Lemma three_good t ns : In t standard_types -> Forall (fun n => word_ok (str n)) ns -> Forall good_property (three t ns).
Proof. intros Ht Hn. unfold three. apply Forall_map. eapply Forall_impl; [|exact Hn]. intros n Hw. repeat split; auto; apply Hw. Qed.
Lemma word_lit s : forallb (fun c => negb (str_space c) && (nat_of_ascii c <? 128)%nat) (str s) = true -> str s <> [] -> word_ok (str s).
Proof. intros H Hn. split; auto. apply Forall_forall. intros c Hc. rewrite forallb_forall in H. specialize (H c Hc). apply andb_prop in H as [H1 H2]. apply negb_true_iff in H1. apply Nat.ltb_lt in H2. auto. Qed.
Lemma vprops_good ab n c : Forall good_property (vprops ab n c).
Proof.
  unfold vprops. apply Forall_app. split; [|apply Forall_app; split].
  - apply three_good; [cbn; tauto|]. repeat constructor; apply word_lit; easy.
  - destruct n; [|constructor]. apply three_good; [cbn; tauto|]. repeat constructor; apply word_lit; easy.
  - destruct c; [|constructor]. apply three_good; [destruct ab; cbn; tauto|]. repeat constructor; apply word_lit; easy.
Qed.
Lemma f2_same {A} (P : A -> A -> Prop) l : Forall2 P l l -> Forall (fun x => P x x) l.
Proof. intros H. assert (G : forall a b, Forall2 P a b -> a = b -> Forall (fun x => P x x) a). { clear. intros a b. induction 1; intros E; constructor; injection E; intros; subst; auto. } eapply G; eauto. Qed.
Lemma written_good (fit : prop -> datum -> Prop) cell ccell (ab : bool) verts faces normals colors : writable verts faces normals colors ->
  (forall n x, (x < 2 ^ 32)%N -> fit (Prop_ (str n) ft None) (One (cell x))) ->
  (forall n x, (x < 2 ^ 32)%N -> fit (Prop_ (str n) (if ab then uct else ft) None) (One (ccell x))) ->
  (forall f, length f = 3%nat -> Forall (fun i => - 2 ^ 31 <= i < 2 ^ 31) f -> fit fprop (Many (map Whole f))) ->
  good_content fit (written cell ccell ab verts faces normals colors).
Proof.
  intros (Gv & Gf & Gn & Gc) H1 H2 H3. unfold written.
  set (FE := match verts with [] => [] | _ :: _ => _ end).
  assert (HFE : FE = [] \/ exists f, faces = Some f /\ FE = [(El (str "face") (Z.of_nat (length f)) [fprop], map (fun f => [Many (map Whole f)]) f)]).
  { unfold FE. destruct verts; [now left|]. destruct faces as [f|]; [right; eauto|now left]. }
  split; [easy|]. split.
  - destruct HFE as [->|(f & _ & ->)]; cbn; repeat constructor; cbn; intuition discriminate.
  - constructor.
    + repeat split; cbn [fst snd e_name e_count e_props].
      * apply word_lit; easy.
      * apply word_lit; easy.
      * now rewrite rows_of_len.
      * easy.
      * apply vprops_nodup.
      * apply vprops_good.
      * eapply Forall_impl; [|apply f2_same, (blocks (fun p r (_ : list datum) => Forall2 fit p r) _ _ _ _ ab); auto].
        -- easy.
        -- intros p q a b c d A B. now apply Forall2_app.
        -- intros n1 n2 n3 a b c Ha Hb Hc. cbn [map three]. repeat constructor; auto.
        -- intros a b c Ha Hb Hc. cbn [map three rgb]. repeat constructor; auto.
    + destruct HFE as [->|(f & -> & ->)]; [constructor|]. constructor; [|constructor]. cbn in Gf. repeat split; cbn [fst snd e_name e_count e_props].
      * apply word_lit; easy.
      * apply word_lit; easy.
      * now rewrite map_length.
      * easy.
      * repeat constructor; cbn; tauto.
      * repeat constructor; try (apply word_lit; easy); cbn; tauto.
      * apply Forall_map. eapply Forall_impl; [|exact Gf]. intros fc [Hl Hr]. constructor; auto.
Qed.

(* ---- the columns ---- *)
Lemma has_left p q a b n v : has_value p a n v -> has_value (p ++ q) (a ++ b) n v.
Proof.
  intros (i & r & E1 & E2 & E3). exists i, r. split; [|split; auto].
  - rewrite nth_error_app1; auto. apply nth_error_Some. congruence.
  - rewrite nth_error_app1; auto. apply nth_error_Some. congruence.
Qed.
Lemma has_right p q a b n v : length p = length a -> has_value q b n v -> has_value (p ++ q) (a ++ b) n v.
Proof.
  intros Hl (i & r & E1 & E2 & E3). exists (length p + i)%nat, r. split; [|split; auto].
  - rewrite nth_error_app2 by lia. now replace (length p + i - length p)%nat with i by lia.
  - rewrite nth_error_app2 by lia. now replace (length p + i - length a)%nat with i by lia.
Qed.
Lemma has_unique ps row n v w : NoDup (map p_name ps) -> has_value ps row n v -> has_value ps row n w -> v = w.
Proof.
  intros Hn (i & p & E1 & E2 & E3) (j & q & F1 & F2 & F3). assert (i = j); [|subst; congruence].
  eapply NoDup_nth_error; [exact Hn| |].
  - rewrite map_length. apply nth_error_Some. congruence.
  - rewrite !nth_error_map, E1, F1. cbn. congruence.
Qed.
Lemma f2_unique {A B} (P : A -> B -> Prop) a : (forall x y z, In x a -> P x y -> P x z -> y = z) -> forall b c, Forall2 P a b -> Forall2 P a c -> b = c.
Proof.
  induction a as [|x a IH]; intros H b c H1 H2; inversion H1; inversion H2; subst; auto. f_equal; [eapply H; eauto; now left|]. apply IH; auto. intros; eapply H; eauto. now right.
Qed.
Lemma columns_unique ps rows ns a b : NoDup (map p_name ps) -> columns_are ps rows ns a -> columns_are ps rows ns b -> a = b.
Proof. intros Hn. apply f2_unique. intros row x y _. apply f2_unique. intros n v w _. now apply has_unique. Qed.
Lemma zip_left {A B} (Q Q' : list A -> B -> Prop) : (forall a b o, Q a o -> Q' (a ++ b) o) -> forall a b out, length a = length b -> Forall2 Q a out -> Forall2 Q' (zip_rows a b) out.
Proof.
  intros H a b out Hl F. revert b Hl. induction F as [|x y a out Hxy F IH]; intros [|z b] Hl; try easy; [constructor|]. unfold zip_rows. cbn. constructor; [now apply H|]. apply IH. cbn in Hl. lia.
Qed.
Lemma zip_right {A B} (L : list A -> Prop) (Q Q' : list A -> B -> Prop) : (forall a b o, L a -> Q b o -> Q' (a ++ b) o) -> forall a b out, length a = length b -> Forall L a -> Forall2 Q b out -> Forall2 Q' (zip_rows a b) out.
Proof.
  intros H a b out Hl FL F. revert a Hl FL. induction F as [|x y b out Hxy F IH]; intros [|z a] Hl FL; try easy; [constructor|]. apply Forall_cons_iff in FL as [L1 L2]. unfold zip_rows. cbn. constructor; [now apply H|]. apply IH; auto.
Qed.
Lemma block_columns t n1 n2 n3 cell rows : good_rows rows -> columns_are (three t [n1; n2; n3]) (map (map (fun x => One (cell x))) rows) [n1; n2; n3] (map (map cell) rows).
Proof.
  intros G. induction G as [|r rows [Hl Hb] G IH]; [constructor|]. cbn [map]. constructor; [|exact IH]. destruct r as [|a [|b [|c [|]]]]; try easy. cbn [map].
  repeat constructor; [exists 0%nat|exists 1%nat|exists 2%nat]; eexists; repeat split.
Qed.
Lemma block_len {A} (g : f32 -> A) rows : good_rows rows -> Forall (fun a => 3%nat = length a) (map (map g) rows).
Proof. intros G. apply Forall_map. eapply Forall_impl; [|exact G]. intros r [Hl _]. now rewrite map_length. Qed.
Section Columns.
  Context (cell ccell : f32 -> num) (ab : bool) (verts : list (list f32)) (normals colors : option matrix).
  Hypothesis (Gv : good_rows verts) (Gn : good_matrix (length verts) normals) (Gc : good_matrix (length verts) colors).
  Let ps := vprops ab normals colors.
  Let rows := rows_of (fun x => One (cell x)) (fun x => One (ccell x)) verts normals colors.
  Lemma verts_columns : columns_are ps rows ["x"; "y"; "z"]%string (map (map cell) verts).
  Proof.
    unfold ps, rows, vprops, rows_of, columns_are. destruct normals as [n|], colors as [c|]; cbn in Gn, Gc.
    1-3: eapply zip_left; [|unfold zip_rows; repeat (rewrite ?map_length, ?combine_length); lia|apply block_columns, Gv]; intros a b o Q; (eapply f2_impl; [|exact Q]); intros m v; apply has_left.
    rewrite !app_nil_r. apply block_columns, Gv.
  Qed.
  Lemma normals_columns m : normals = Some m -> columns_are ps rows ["nx"; "ny"; "nz"]%string (map (map cell) (m_rows m)).
  Proof.
    intros E. unfold ps, rows, vprops, rows_of, columns_are. rewrite E in *. destruct Gn as (_ & Ln & Gr). destruct colors as [c|]; cbn in Gc.
    - eapply zip_right with (L := fun a => 3%nat = length a); [|unfold zip_rows; repeat (rewrite ?map_length, ?combine_length); lia|apply block_len, Gv|].
      + intros a b o L Q. eapply f2_impl; [|exact Q]. intros k v. apply has_right. exact L.
      + eapply zip_left; [|rewrite !map_length; lia|apply block_columns, Gr]. intros a b o Q. eapply f2_impl; [|exact Q]. intros k v. apply has_left.
    - rewrite app_nil_r. eapply zip_right with (L := fun a => 3%nat = length a); [|unfold zip_rows; repeat (rewrite ?map_length, ?combine_length); lia|apply block_len, Gv|apply block_columns, Gr].
      intros a b o L Q. eapply f2_impl; [|exact Q]. intros k v. apply has_right. exact L.
  Qed.
  Lemma colors_columns m : colors = Some m -> columns_are ps rows rgb (map (map ccell) (m_rows m)).
  Proof.
    intros E. unfold ps, rows, vprops, rows_of, columns_are. rewrite E in *. destruct Gc as (_ & Lc & Gr). destruct normals as [n|]; cbn in Gn.
    - destruct Gn as (_ & Ln & Gn'). eapply zip_right with (L := fun a => 3%nat = length a); [|unfold zip_rows; repeat (rewrite ?map_length, ?combine_length); lia|apply block_len, Gv|].
      + intros a b o L Q. eapply f2_impl; [|exact Q]. intros k v. apply has_right. exact L.
      + eapply zip_right with (L := fun a => 3%nat = length a); [|rewrite !map_length; lia|apply block_len, Gn'|apply block_columns, Gr]. intros a b o L Q. eapply f2_impl; [|exact Q]. intros k v. apply has_right. exact L.
    - eapply zip_right with (L := fun a => 3%nat = length a); [|unfold zip_rows; repeat (rewrite ?map_length, ?combine_length); lia|apply block_len, Gv|apply block_columns, Gr].
      intros a b o L Q. eapply f2_impl; [|exact Q]. intros k v. apply has_right. exact L.
  Qed.
End Columns.
Lemma vertices_are cell ccell (ab : bool) verts normals colors : good_rows verts -> good_matrix (length verts) normals -> good_matrix (length verts) colors ->
  forall v, reads_vertices (vprops ab normals colors) (rows_of (fun x => One (cell x)) (fun x => One (ccell x)) verts normals colors) v ->
    v_verts v = map (map cell) verts /\
    v_colors v = match colors with Some m => Some (ab, map (map ccell) (m_rows m)) | None => None end /\
    (verts <> [] -> v_normals v = match normals with Some m => Some (map (map cell) (m_rows m)) | None => None end /\ v_uvs v = None).
  Proof.
    intros Gv Gn Gc v (R1 & R2 & R3 & R4 & R5). assert (ND : NoDup (map p_name (vprops ab normals colors))) by apply vprops_nodup.
    pose proof (verts_columns cell ccell ab verts normals colors Gv Gn Gc) as VC. pose proof (normals_columns cell ccell ab verts normals colors Gv Gn Gc) as NC. pose proof (colors_columns cell ccell ab verts normals colors Gv Gn Gc) as CC.
    assert (Hlen : length (rows_of (fun x => One (cell x)) (fun x => One (ccell x)) verts normals colors) = length verts) by now apply rows_of_len.
    split; [exact (columns_unique _ _ _ _ _ ND R1 VC)|]. split.
    - destruct (v_colors v) as [[s c]|] eqn:E; cbn [option_map snd maybe_columns] in R2.
      + destruct R2 as [Hh R2]. destruct colors as [m|] eqn:Ec.
        * rewrite (columns_unique _ _ _ _ _ ND R2 (CC m eq_refl)). do 2 f_equal. specialize (R3 s c eq_refl). destruct ab.
          -- apply R3. intros p k Hp Hk Ek. unfold vprops in Hp. rewrite !in_app_iff in Hp. cbn in Hp, Hk. destruct normals; cbn in Hp; intuition (subst; try reflexivity; discriminate).
          -- destruct s; auto. destruct R3 as [R3 _]. specialize (R3 eq_refl (Prop_ (str "red") ft None) "red"%string). assert (X : 4%nat = 1%nat); [|discriminate].
             apply R3; [unfold vprops; rewrite !in_app_iff; right; right; now left|now left|reflexivity].
        * exfalso. specialize (Hh "red"%string (or_introl eq_refl)). unfold vprops in Hh. destruct normals; cbn in Hh; intuition discriminate.
      + destruct colors as [m|]; [|reflexivity]. exfalso. apply R2. intros k Hk. unfold vprops. rewrite !map_app, !in_app_iff. right. right. cbn in Hk |- *. intuition (subst; auto).
    - intros Hne. assert (Hr : rows_of (fun x => One (cell x)) (fun x => One (ccell x)) verts normals colors <> []). { intros E. apply Hne. rewrite E in Hlen. now destruct verts. }
      specialize (R4 Hr). specialize (R5 Hr). split.
      + destruct (v_normals v) as [c|] eqn:E; cbn [maybe_columns] in R4.
        * destruct R4 as [Hh R4]. destruct normals as [m|] eqn:Ec.
          -- rewrite (columns_unique _ _ _ _ _ ND R4 (NC m eq_refl)). reflexivity.
          -- exfalso. specialize (Hh "nx"%string (or_introl eq_refl)). unfold vprops in Hh. destruct colors; cbn in Hh; intuition discriminate.
        * destruct normals as [m|]; [|reflexivity]. exfalso. apply R4. intros k Hk. unfold vprops. rewrite !map_app, !in_app_iff. right. left. cbn in Hk |- *. intuition (subst; auto).
      + destruct (v_uvs v) as [c|] eqn:E; [|reflexivity]. exfalso. destruct R5 as [Hh _]. specialize (Hh "texture_u"%string (or_introl eq_refl)). unfold vprops in Hh. destruct colors, normals; cbn in Hh; intuition discriminate.
  Qed.
Lemma written_vertices cell ccell ab verts faces normals colors :
  good_vertices (written cell ccell ab verts faces normals colors) (vprops ab normals colors) (rows_of (fun x => One (cell x)) (fun x => One (ccell x)) verts normals colors).
Proof.
  eexists. split; [left; reflexivity|]. repeat split; auto.
  - cbn [e_props]. unfold vprops. rewrite !Forall_app. repeat split; destruct normals, colors; repeat constructor.
  - intros n Hn. unfold vprops. rewrite map_app, in_app_iff. left. cbn in Hn |- *. intuition (subst; auto).
  - intros Hl _. unfold vprops in *. destruct normals, colors; try discriminate. reflexivity.
Qed.
Definition polys_of (verts : list (list f32)) (faces : option (list (list Z))) : option (list (list Z)) := match verts with [] => None | _ => faces end.
Lemma written_polygons cell ccell ab verts faces normals colors : polygons (written cell ccell ab verts faces normals colors) (polys_of verts faces).
Proof.
  unfold polygons, polys_of, written. destruct verts as [|v verts]; [cbn; intuition discriminate|]. destruct faces as [f|]; [|cbn; intuition discriminate].
  eexists _, fprop. split; [right; left; reflexivity|]. repeat split. easy.
Qed.
Lemma written_three verts faces normals colors : writable verts faces normals colors -> at_least_three (polys_of verts faces).
Proof.
  intros (_ & Gf & _). unfold polys_of. destruct verts; [exact I|]. destruct faces as [f|]; [|exact I]. cbn in Gf |- *. eapply Forall_impl; [|exact Gf]. intros x [-> _]. auto.
Qed.
Lemma written_faces verts faces normals colors fs : writable verts faces normals colors -> reads_faces (polys_of verts faces) fs -> fs = kept_faces verts faces.
Proof.
  intros (_ & Gf & _). unfold polys_of, kept_faces. destruct verts as [|v0 vs]; [auto|]. destruct faces as [[|f fl]|]; auto. cbn in Gf. intros (out & -> & _ & H). f_equal. apply H. eapply Forall_impl; [|exact Gf]. now intros x [].
Qed.
Lemma written_length cell ccell ab verts faces normals colors : (header_length (written cell ccell ab verts faces normals colors) <= 14)%nat.
Proof. unfold header_length, written, vprops. destruct ab, verts, faces, normals, colors; cbn; lia. Qed.

Lemma binary_round_trip host verts faces normals colors dp as_bytes : writable verts faces normals colors ->
  exists file, save_ply_data host verts faces normals colors false dp as_bytes = Ok file /\
  forall host' fuel, (14 <= fuel)%nat -> exists v, load_ply_data host' fuel file = Some (Ok (PD v (kept_faces verts faces))) /\
    v_verts v = bits_of verts /\
    v_colors v = match colors with Some m => Some (as_bytes, if as_bytes then color_bytes (m_rows m) else bits_of (m_rows m)) | None => None end /\
    (verts <> [] -> v_normals v = match normals with Some m => Some (bits_of (m_rows m)) | None => None end /\ v_uvs v = None).
Proof.
  intros W. eexists. split; [apply save_binary, W|]. intros host' fuel Hf. set (es := written Single (binary_cells as_bytes) as_bytes verts faces normals colors).
  destruct (binary_reads host' host es (vprops as_bytes normals colors) (rows_of (fun x => One (Single x)) (fun x => One (binary_cells as_bytes x)) verts normals colors) (polys_of verts faces) [] fuel) as (v & fs & E & Rv & Rf).
  - apply written_good; auto.
    + intros n x Hx. split; auto.
    + intros n x Hx. unfold binary_cells, datum_fits. destruct as_bytes; cbn [p_list p_type]; [|split; auto]. cbn. pose proof (color_byte_small x). lia.
    + intros f Hl Hr. unfold datum_fits. cbn [p_list fprop p_type]. split; [rewrite map_length, Hl; cbn; lia|]. apply Forall_map. eapply Forall_impl; [|exact Hr]. intros i Hi. cbn. exact Hi.
  - apply written_vertices.
  - apply written_polygons.
  - eapply written_three; eauto.
  - pose proof (written_length Single (binary_cells as_bytes) as_bytes verts faces normals colors). unfold es. lia.
  - reflexivity.
  - rewrite app_nil_r in E. exists v. destruct W as (Gv & Gf & Gn & Gc). rewrite (written_faces verts faces normals colors fs) in E; [|split; auto|auto]. split; [exact E|].
    destruct (vertices_are Single (binary_cells as_bytes) as_bytes verts normals colors Gv Gn Gc v Rv) as (A & B & C). split; [exact A|]. split; [|exact C]. rewrite B. unfold binary_cells. destruct colors, as_bytes; reflexivity.
Qed.
Lemma text_cell_rounded d x : rounded d x (text_cell d x).
Proof. pose proof (fixed_rounds d (f32_value x)) as H. unfold rounded, text_cell. eexists. split; [reflexivity|exact H]. Qed.
Lemma text_rows_rounded d rows : rounded_rows d rows (map (map (text_cell d)) rows).
Proof. unfold rounded_rows. induction rows as [|r rows IH]; constructor; auto. induction r; constructor; auto. apply text_cell_rounded. Qed.
Lemma text_round_trip host verts faces normals colors dp as_bytes : writable verts faces normals colors ->
  exists file, save_ply_data host verts faces normals colors true dp as_bytes = Ok file /\
  forall host' fuel, (14 <= fuel)%nat -> exists v, load_ply_data host' fuel file = Some (Ok (PD v (kept_faces verts faces))) /\
    rounded_rows (places dp) verts (v_verts v) /\
    match colors with Some m => exists c, v_colors v = Some (as_bytes, c) /\ if as_bytes then c = color_bytes (m_rows m) else rounded_rows (places dp) (m_rows m) c | None => v_colors v = None end /\
    (verts <> [] -> match normals with Some m => exists c, v_normals v = Some c /\ rounded_rows (places dp) (m_rows m) c | None => v_normals v = None end /\ v_uvs v = None).
Proof.
  intros W. eexists. split; [apply save_text, W|]. intros host' fuel Hf. set (d := places dp). set (es := written (text_cell d) (text_cells d as_bytes) as_bytes verts faces normals colors).
  destruct (text_reads host' es (vprops as_bytes normals colors) (rows_of (fun x => One (text_cell d x)) (fun x => One (text_cells d as_bytes x)) verts normals colors) (polys_of verts faces) [] fuel) as (v & fs & E & Rv & Rf).
  - apply written_good; auto.
    + intros n x Hx. cbn. lia.
    + intros n x Hx. unfold text_cells, datum_fits_text. destruct as_bytes; cbn [p_list p_type]; [cbn; pose proof (color_byte_small x); lia|cbn; lia].
    + intros f Hl Hr. unfold datum_fits_text. cbn [p_list fprop p_type]. split; [rewrite map_length, Hl; cbn; lia|]. apply Forall_map. eapply Forall_impl; [|exact Hr]. intros i Hi. cbn. exact Hi.
  - unfold es, written. constructor.
    + left. cbn [fst e_props]. unfold vprops. rewrite !Forall_app. repeat split; destruct normals, colors; repeat constructor.
    + destruct verts; [constructor|]. destruct faces; [|constructor]. constructor; [|constructor]. right. constructor; [discriminate|constructor].
  - apply written_vertices.
  - apply written_polygons.
  - eapply written_three; eauto.
  - pose proof (written_length (text_cell d) (text_cells d as_bytes) as_bytes verts faces normals colors). unfold es. lia.
  - reflexivity.
  - rewrite app_nil_r in E. exists v. destruct W as (Gv & Gf & Gn & Gc). rewrite (written_faces verts faces normals colors fs) in E; [|split; auto|auto]. split; [exact E|].
    destruct (vertices_are (text_cell d) (text_cells d as_bytes) as_bytes verts normals colors Gv Gn Gc v Rv) as (A & B & C). split; [rewrite A; apply text_rows_rounded|]. split.
    + rewrite B. destruct colors as [m|]; [|reflexivity]. eexists. split; [reflexivity|]. unfold text_cells. destruct as_bytes; [reflexivity|apply text_rows_rounded].
    + intros Hne. destruct (C Hne) as [C1 C2]. split; auto. rewrite C1. destruct normals as [m|]; [|reflexivity]. eexists. split; [reflexivity|]. apply text_rows_rounded.
Qed.
