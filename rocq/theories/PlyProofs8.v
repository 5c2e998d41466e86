(* Examples, the accuracy of byte colours, and what is not true. *)
From Coq Require Import Ascii String ZArith NArith Reals Bool List Permutation Lia Lra.
From Verif Require Import Base RBase Text TextSpec TextProofs Ply PlySpec PlyProofs PlyProofs2 PlyProofs3 PlyProofs4 PlyProofs5 PlyProofs6 PlyProofs7.
Import ListNotations.
Local Open Scope list_scope.
Local Open Scope Z_scope.

Lemma byte_color c : finite c -> (0 <= f32_value c <= 1)%R -> (Rabs (IZR (Z.of_N (color_byte c)) / 255 - f32_value c) <= / 510)%R.
Proof.
  intros _ H. unfold color_byte. set (x := (f32_value c * 255)%R). assert (Hx : (0 <= x <= 255)%R) by (unfold x; lra).
  pose proof (round_even_near x) as Hn. assert (Hn1 := Rle_abs (IZR (round_even x) - x)); assert (Hn2 := Rle_abs (- (IZR (round_even x) - x))); rewrite Rabs_Ropp in Hn2. assert (Hr : 0 <= round_even x <= 255).
  { split.
    - apply Z.lt_succ_r. apply lt_IZR. rewrite succ_IZR. lra.
    - apply Z.lt_succ_r. apply lt_IZR. rewrite succ_IZR. lra. }
  rewrite Z.mod_small, Z2N.id by lia. apply Rabs_le. unfold x in *. lra.
Qed.

(* a quad and a triangle over four coloured vertices; the columns are not in the usual order *)
Definition ex_ps : list prop := [Prop_ (str "red") uct None; Prop_ (str "z") ft None; Prop_ (str "x") ft None; Prop_ (str "green") uct None; Prop_ (str "blue") uct None; Prop_ (str "y") ft None].
Definition ex_row (k : Z) : list datum := [One (Whole k); One (Single (Z.to_N (k + 1))); One (Single (Z.to_N (k + 2))); One (Whole (k + 3)); One (Whole (k + 4)); One (Single (Z.to_N (k + 5)))].
Definition ex_polys : list (list Z) := [[0; 1; 2; 3]; [0; 2; 3]].
Definition ex_faces : element * list (list datum) := (El (str "face") 2 [Prop_ (str "vertex_indices") it (Some uct)], map (fun f => [Many (map Whole f)]) ex_polys).
Definition ex_content : content := [(El (str "vertex") 4 ex_ps, map ex_row [0; 10; 20; 30]); ex_faces].
Definition ex_text_row (k : Z) : list datum :=
  [One (Whole k); One (Decimal {| man := - k; exp := 2 |}); One (Decimal {| man := k; exp := 0 |}); One (Whole (k + 3)); One (Whole (k + 4)); One (Decimal {| man := 7; exp := 3 |})].
Definition ex_text : content := [(El (str "vertex") 4 ex_ps, map ex_text_row [0; 10; 20; 30]); ex_faces].
Ltac words := first [apply word_lit; [reflexivity|discriminate]].
Ltac good := split; [discriminate|split; [cbn; repeat constructor; cbn; intuition discriminate|
  repeat (apply Forall_cons || apply Forall_nil); (split; [words|split; [reflexivity|split; [discriminate|split; [cbn; repeat constructor; cbn; intuition discriminate|split;
   [repeat (apply Forall_cons || apply Forall_nil); (split; [words|split; [cbn; tauto|cbn; tauto]])|
    cbn; repeat constructor; cbn; try lia; try reflexivity]]]]])]].
Lemma ex_good : good_content datum_fits ex_content.
Proof. good. Qed.
Lemma ex_text_good : good_content datum_fits_text ex_text.
Proof. good. Qed.
Lemma ex_text_readable : Forall (fun er => decimals_readable (fst er)) ex_text.
Proof. constructor; [left; repeat constructor|]. constructor; [right; constructor; [discriminate|constructor]|constructor]. Qed.
Lemma ex_vertices (rows : list (list datum)) es : In (El (str "vertex") 4 ex_ps, rows) es -> good_vertices es ex_ps rows.
Proof.
  intros H. eexists. split; [exact H|]. repeat split; auto.
  - repeat constructor.
  - intros n Hn. cbn in Hn |- *. intuition (subst; auto 10).
  - intros Hl. discriminate.
Qed.
Lemma ex_polygons es : In ex_faces es -> polygons es (Some ex_polys).
Proof. intros H. eexists _, _. split; [exact H|]. repeat split. easy. Qed.
Lemma ex_three : at_least_three (Some ex_polys).
Proof. cbn. repeat constructor. Qed.

(* ---- what is not true ---- *)
Lemma empty_loops fuel : forall st, header_loop fuel st [] = None.
Proof. induction fuel as [|fuel IH]; intros st; [reflexivity|]. cbn [header_loop]. change (negb (is_ascii [])) with false. cbv iota. destruct st as [[f|] es]; apply IH. Qed.
Lemma terminates_refuted : ~ (forall host file, exists fuel r, load_ply_data host fuel file = Some r).
Proof. intros H. destruct (H false (str "ply" ++ [nl])) as (fuel & r & E). unfold load_ply_data in E. cbn [lines lines_from str list_ascii_of_string app] in E. cbn in E. rewrite empty_loops in E. discriminate. Qed.
Definition zyx : content := [(El (str "vertex") 1 (three ft ["z"; "y"; "x"]%string), [[One (Single 1); One (Single 2); One (Single 3)]])].
Lemma names_refuted : ~ (forall host fuel big es ps rows e, good_content datum_fits es -> In (e, rows) es -> e_name e = str "vertex" -> e_props e = ps -> Forall (fun p => p_list p = None) ps ->
   has_names ps ["x"; "y"; "z"]%string -> (header_length es <= fuel)%nat ->
   exists v fs, load_ply_data host fuel (binary_file big es) = Some (Ok (PD v fs)) /\ columns_are ps rows ["x"; "y"; "z"]%string (v_verts v)).
Proof.
  intros H. destruct (H false 100%nat false zyx (three ft ["z"; "y"; "x"]%string) _ _ ltac:(good) (or_introl eq_refl) eq_refl eq_refl) as (v & fs & E & C).
  - repeat constructor.
  - intros n Hn. cbn in Hn |- *. intuition (subst; auto).
  - cbn. lia.
  - vm_compute in E. injection E as <- <-. cbn [v_verts] in C. inversion C as [|? ? ? ? C1 _]; subst. inversion C1 as [|? ? ? ? (i & p & A1 & A2 & A3) _]; subst.
    destruct i as [|[|[|i]]]; cbn in A1, A3.
    + injection A1 as <-. discriminate.
    + injection A1 as <-. discriminate.
    + discriminate.
    + destruct i; discriminate.
Qed.
Lemma empty_normals_refuted : ~ (forall host verts ascii_ dp, good_rows verts -> exists file, save_ply host verts None (Some (M 3 [])) ascii_ dp = Ok file).
Proof.
  intros H. destruct (H false [[0; 0; 0]%N] false None) as (file & E); [repeat constructor|]. vm_compute in E. discriminate.
Qed.
Definition f32t : ptype := PT (str "float32") 4 Floating.
Definition mixed : content :=
  [(El (str "vertex") 0 (three ft ["x"; "y"; "z"]%string), []);
   (El (str "extra") 2 [Prop_ (str "weight") f32t None; Prop_ (str "links") it (Some uct)],
    [[One (Decimal {| man := 15; exp := 1 |}); Many [Whole 1]]; [One (Decimal {| man := 25; exp := 1 |}); Many [Whole 1; Whole 2]]])].
Lemma text_types_refuted : ~ (forall host es ps rows polys fuel, good_content datum_fits_text es -> good_vertices es ps rows -> polygons es polys -> at_least_three polys -> (header_length es <= fuel)%nat ->
  exists d, load_ply_data host fuel (text_file es) = Some (Ok d)).
Proof.
  intros H. destruct (H false mixed (three ft ["x"; "y"; "z"]%string) [] None 100%nat) as (d & E).
  - good.
  - eexists. split; [left; reflexivity|]. repeat split; auto; [repeat constructor|]. intros n Hn. cbn in Hn |- *. intuition (subst; auto).
  - cbn. intuition discriminate.
  - exact I.
  - cbn. lia.
  - vm_compute in E. discriminate.
Qed.
(* the other tuples of a mesh that is written *)
Definition ex_verts : list (list f32) := [[0; 1065353216; 3212836864]; [1; 2; 3]; [4; 5; 1056964608]]%N.
Definition ex_tris : list (list Z) := [[0; 1; 2]; [2; 1; 0]].
Lemma ex_writable : writable ex_verts (Some ex_tris) (Some (M 3 ex_verts)) (Some (M 3 ex_verts)).
Proof. repeat split; repeat constructor; cbn; lia. Qed.
Lemma blank_spaces bs : blank bs = forallb is_space bs.
Proof. unfold blank. induction bs as [|c bs IH]; [reflexivity|]. cbn. destruct (is_space c); auto. Qed.
