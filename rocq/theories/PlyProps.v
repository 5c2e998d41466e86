(* C38: reading and writing PLY files. *)
From Coq Require Import Ascii String ZArith NArith Reals Bool List Permutation Lia.
From Verif Require Import Base RBase Text TextSpec Ply PlySpec PlyProofs5 PlyProofs6 PlyProofs7 PlyProofs8 PlyProofs9 TextProofs.
Import ListNotations.
Local Open Scope list_scope.
Local Open Scope Z_scope.

(* A binary file of either byte order, read on a machine of either byte order: the vertices are the columns called
   x, y, z wherever they stand, colours, normals and texture coordinates are there exactly when all their columns
   are, and every polygon becomes its fan of triangles. *)
Theorem ply_binary_reads : forall host big es ps rows polys fuel,
  good_content datum_fits es -> good_vertices es ps rows -> polygons es polys -> at_least_three polys -> (header_length es <= fuel)%nat ->
  exists v fs, load_ply_data host fuel (binary_file big es) = Some (Ok (PD v fs)) /\ reads_vertices ps rows v /\ reads_faces polys fs.
Proof. intros host big es ps rows polys fuel G V P T F. rewrite <- (app_nil_r (binary_file big es)). now apply binary_reads. Qed.
Print Assumptions ply_binary_reads.
Example ply_binary_reads_ex : good_content datum_fits ex_content /\ good_vertices ex_content ex_ps (map ex_row [0; 10; 20; 30]) /\ polygons ex_content (Some ex_polys) /\ at_least_three (Some ex_polys) /\
  load_ply_data false 20 (binary_file true ex_content) =
  Some (Ok (PD {| v_verts := map (map Single) [[2; 5; 1]; [12; 15; 11]; [22; 25; 21]; [32; 35; 31]]%N;
                  v_colors := Some (true, map (map Whole) [[0; 3; 4]; [10; 13; 14]; [20; 23; 24]; [30; 33; 34]]);
                  v_normals := None; v_uvs := None |} (Some [[0; 1; 2]; [0; 2; 3]; [0; 2; 3]]))).
Proof. repeat match goal with |- _ /\ _ => split end; [apply ex_good|apply ex_vertices; now left|apply ex_polygons; right; now left|apply ex_three|vm_compute; reflexivity]. Qed.

(* The same for text files. *)
Theorem ply_text_reads : forall host es ps rows polys fuel,
  good_content datum_fits_text es -> Forall (fun er => decimals_readable (fst er)) es -> good_vertices es ps rows -> polygons es polys -> at_least_three polys -> (header_length es <= fuel)%nat ->
  exists v fs, load_ply_data host fuel (text_file es) = Some (Ok (PD v fs)) /\ reads_vertices ps rows v /\ reads_faces polys fs.
Proof. intros host es ps rows polys fuel G D V P T F. rewrite <- (app_nil_r (text_file es)). now apply text_reads. Qed.
Print Assumptions ply_text_reads.
Example ply_text_reads_ex : good_content datum_fits_text ex_text /\ Forall (fun er => decimals_readable (fst er)) ex_text /\ good_vertices ex_text ex_ps (map ex_text_row [0; 10; 20; 30]) /\
  polygons ex_text (Some ex_polys) /\ at_least_three (Some ex_polys).
Proof. repeat match goal with |- _ /\ _ => split end; [apply ex_text_good|apply ex_text_readable|apply ex_vertices; now left|apply ex_polygons; right; now left|apply ex_three]. Qed.

(* A row of an element with several properties, one of them a list, may not hold more numbers than
   the header announces: whatever follows, the file is refused. *)
Theorem ply_text_long_row : forall host es e before row after more numbers rest fuel,
  let content := es ++ (e, before ++ row :: after) :: more in
  good_content datum_fits_text content -> Forall (fun er => decimals_readable (fst er)) content -> (header_length content <= fuel)%nat ->
  (2 <= length (e_props e))%nat -> ~ Forall (fun p => p_list p = None) (e_props e) -> numbers <> [] ->
  load_ply_data host fuel
    (unlines (the_header FAscii (map fst content)) ++
     unlines (concat (map (fun er => map shown_row (snd er)) es) ++ map shown_row before ++ [join sp (concat (map shown_datum row) ++ map print_int numbers)]) ++ rest) =
  Some (Fail EValue).
Proof.
  intros host es e before row after more numbers rest fuel content G D F L N E. apply load_text_extra; auto; [destruct numbers; easy|].
  apply Forall_forall. intros w Hw. apply in_map_iff in Hw as (z & <- & _). apply good_int.
Qed.
Print Assumptions ply_text_long_row.

(* What follows the data must be white space. *)
Theorem ply_binary_extra : forall host big es fuel extra, good_content datum_fits es -> (header_length es <= fuel)%nat ->
  load_ply_data host fuel (binary_file big es ++ extra) = if forallb is_space extra then load_ply_data host fuel (binary_file big es) else Some (Fail EValue).
Proof.
  intros host big es fuel extra G F. rewrite load_binary by auto. rewrite <- (app_nil_r (binary_file big es)). rewrite load_binary by auto. change (blank []) with true. cbv iota. rewrite blank_spaces. destruct (forallb _ extra); reflexivity.
Qed.
Print Assumptions ply_binary_extra.
Theorem ply_text_extra : forall host es fuel extra, good_content datum_fits_text es -> Forall (fun er => decimals_readable (fst er)) es -> (header_length es <= fuel)%nat ->
  load_ply_data host fuel (text_file es ++ extra) = if forallb is_space extra then load_ply_data host fuel (text_file es) else Some (Fail EValue).
Proof.
  intros host es fuel extra G D F. rewrite load_text by auto. rewrite <- (app_nil_r (text_file es)). rewrite load_text by auto. change (blank []) with true. cbv iota. rewrite blank_spaces. destruct (forallb _ extra); reflexivity.
Qed.
Print Assumptions ply_text_extra.

(* A binary file that stops early is never accepted, wherever it stops. *)
Theorem ply_binary_truncated : forall host big es k fuel d, good_content datum_fits es -> binary_data big es <> [] -> (k < length (binary_file big es))%nat -> (header_length es <= fuel)%nat ->
  load_ply_data host fuel (firstn k (binary_file big es)) <> Some (Ok d).
Proof. exact truncated. Qed.
Print Assumptions ply_binary_truncated.
Example ply_binary_truncated_ex : good_content datum_fits ex_content /\ binary_data true ex_content <> [] /\ (300 < length (binary_file true ex_content))%nat /\ (header_length ex_content <= 20)%nat.
Proof. repeat split; try apply ex_good; try discriminate; apply Nat.leb_le; vm_compute; reflexivity. Qed.

(* A polygon with fewer than three corners is an error. *)
Theorem ply_binary_small_polygon : forall host big es ps rows polys fuel,
  good_content datum_fits es -> good_vertices es ps rows -> polygons es polys -> ~ at_least_three polys -> (header_length es <= fuel)%nat ->
  load_ply_data host fuel (binary_file big es) = Some (Fail EValue).
Proof.
  intros host big es ps rows polys fuel G V P T F. apply (small_polygon datum_fits host _ es ps rows polys fuel); auto; [|apply fit_one]. rewrite <- (app_nil_r (binary_file big es)), load_binary by auto. reflexivity.
Qed.
Print Assumptions ply_binary_small_polygon.
Theorem ply_text_small_polygon : forall host es ps rows polys fuel,
  good_content datum_fits_text es -> Forall (fun er => decimals_readable (fst er)) es -> good_vertices es ps rows -> polygons es polys -> ~ at_least_three polys -> (header_length es <= fuel)%nat ->
  load_ply_data host fuel (text_file es) = Some (Fail EValue).
Proof.
  intros host es ps rows polys fuel G D V P T F. apply (small_polygon datum_fits_text host _ es ps rows polys fuel); auto; [|apply fit_text_one]. rewrite <- (app_nil_r (text_file es)), load_text by auto. reflexivity.
Qed.
Print Assumptions ply_text_small_polygon.
Example ply_small_polygon_ex : exists es ps rows polys, good_content datum_fits es /\ good_vertices es ps rows /\ polygons es polys /\ ~ at_least_three polys.
Proof.
  exists [(El (str "vertex") 4 ex_ps, map ex_row [0; 10; 20; 30]); (El (str "face") 1 [Prop_ (str "vertex_indices") it (Some uct)], [[Many [Whole 0; Whole 1]]])], ex_ps, (map ex_row [0; 10; 20; 30]), (Some [[0; 1]]).
  split; [good|]. split; [apply ex_vertices; now left|]. split; [eexists _, _; split; [right; left; reflexivity|repeat split; easy]|]. cbn. intros H. apply Forall_cons_iff in H as [H _]. cbn in H. lia.
Qed.

(* Comments in the header change nothing. *)
Theorem ply_comments_ignored : forall host fuel first before words after data r,
  Forall (fun l => Forall (fun c => Ascii.eqb c nl = false) l) (first :: before ++ after) -> Forall (fun c => Ascii.eqb c nl = false /\ (nat_of_ascii c < 128)%nat) words ->
  (forall l, In l before -> ~ ends_header (l ++ [nl])) -> load_ply_data host fuel (unlines (first :: before ++ after) ++ data) = Some r ->
  load_ply_data host (S fuel) (unlines (first :: before ++ (str "comment" ++ words) :: after) ++ data) = Some r.
Proof. exact comment_ignored. Qed.
Print Assumptions ply_comments_ignored.
Example ply_comments_ignored_ex : exists first before after data r,
  the_header (FBinary true) (map fst ex_content) = first :: before ++ after /\ length before = 4%nat /\ binary_data true ex_content = data /\
  load_ply_data false 20 (unlines (first :: before ++ after) ++ data) = Some (Ok r) /\
  load_ply_data false 21 (unlines (first :: before ++ (str "comment" ++ str " by hand") :: after) ++ data) = Some (Ok r).
Proof.
  exists (str "ply"), (firstn 4 (tl (the_header (FBinary true) (map fst ex_content)))), (skipn 5 (the_header (FBinary true) (map fst ex_content))). eexists _, _.
  repeat match goal with |- _ /\ _ => split end; [vm_compute; reflexivity|reflexivity|reflexivity|vm_compute; reflexivity|vm_compute; reflexivity].
Qed.

(* The reader comes to an end on every file that has a line end_header after its first line ... *)
Theorem ply_terminates : forall host fuel file, has_end file -> (length (lines file) <= fuel)%nat -> exists r, load_ply_data host fuel file = Some r.
Proof. exact end_terminates. Qed.
Print Assumptions ply_terminates.
Example ply_terminates_ex : has_end (str "ply" ++ [nl] ++ str "end_header").
Proof. exists (str "end_header"). split; [vm_compute; now left|reflexivity]. Qed.
(* ... accepts no other file ... *)
Theorem ply_needs_end : forall host fuel file d, ~ has_end file -> load_ply_data host fuel file <> Some (Ok d).
Proof. exact no_end_never. Qed.
Print Assumptions ply_needs_end.
(* ... but may read the end of such a file for ever. *)
Theorem ply_always_terminates_refuted : ~ (forall host file, exists fuel r, load_ply_data host fuel file = Some r).
Proof. exact terminates_refuted. Qed.
Print Assumptions ply_always_terminates_refuted.

(* Binary files keep every bit of the vertices, normals and float colours, whatever the byte orders of the two machines;
   faces come back as they are, unless there are no vertices. *)
Theorem ply_binary_round_trip : forall host verts faces normals colors decimal_places as_bytes, writable verts faces normals colors -> (as_bytes = true -> finite_rows colors) ->
  exists file, save_ply_data host verts faces normals colors false decimal_places as_bytes = Ok file /\
  forall host' fuel, (14 <= fuel)%nat -> exists v, load_ply_data host' fuel file = Some (Ok (PD v (kept_faces verts faces))) /\
    v_verts v = bits_of verts /\
    v_colors v = match colors with Some m => Some (as_bytes, if as_bytes then color_bytes (m_rows m) else bits_of (m_rows m)) | None => None end /\
    (verts <> [] -> v_normals v = match normals with Some m => Some (bits_of (m_rows m)) | None => None end /\ v_uvs v = None).
Proof. intros host verts faces normals colors dp ab W _. now apply binary_round_trip. Qed.
Print Assumptions ply_binary_round_trip.
Example ply_binary_round_trip_ex : writable ex_verts (Some ex_tris) (Some (M 3 ex_verts)) (Some (M 3 ex_verts)) /\ finite_rows (Some (M 3 ex_verts)) /\
  kept_faces ex_verts (Some ex_tris) = Some ex_tris.
Proof. split; [apply ex_writable|]. split; [repeat constructor; vm_compute; discriminate|reflexivity]. Qed.
(* Text files keep the asked number of decimals. *)
Theorem ply_text_round_trip : forall host verts faces normals colors decimal_places as_bytes, writable verts faces normals colors ->
  Forall (Forall finite) verts -> finite_rows normals -> finite_rows colors ->
  exists file, save_ply_data host verts faces normals colors true decimal_places as_bytes = Ok file /\
  forall host' fuel, (14 <= fuel)%nat -> exists v, load_ply_data host' fuel file = Some (Ok (PD v (kept_faces verts faces))) /\
    rounded_rows (places decimal_places) verts (v_verts v) /\
    match colors with Some m => exists c, v_colors v = Some (as_bytes, c) /\ if as_bytes then c = color_bytes (m_rows m) else rounded_rows (places decimal_places) (m_rows m) c | None => v_colors v = None end /\
    (verts <> [] -> match normals with Some m => exists c, v_normals v = Some c /\ rounded_rows (places decimal_places) (m_rows m) c | None => v_normals v = None end /\ v_uvs v = None).
Proof. intros host verts faces normals colors dp ab W _ _ _. now apply text_round_trip. Qed.
Print Assumptions ply_text_round_trip.
Example ply_text_round_trip_ex : writable ex_verts (Some ex_tris) (Some (M 3 ex_verts)) None /\ Forall (Forall finite) ex_verts.
Proof. split; [|repeat constructor; vm_compute; discriminate]. destruct ex_writable as (A & B & C & _). repeat split; auto; apply C. Qed.
(* Byte colours are within half a step. *)
Theorem ply_byte_colors : forall c, finite c -> (0 <= f32_value c <= 1)%R -> (Rabs (IZR (Z.of_N (color_byte c)) / 255 - f32_value c) <= / 510)%R.
Proof. exact byte_color. Qed.
Print Assumptions ply_byte_colors.
Example ply_byte_colors_ex : finite 1056964608 /\ (f32_value 1056964608 = / 2)%R.
Proof.
  split; [vm_compute; discriminate|]. unfold f32_value. change (Z.of_N 1056964608) with 1056964608. change (1056964608 / 2 ^ 31 =? 0) with true. change ((1056964608 / 2 ^ 23) mod 2 ^ 8 =? 0) with false. cbv iota zeta.
  change (1056964608 mod 2 ^ 23 + 2 ^ 23) with (2 ^ 23). change ((1056964608 / 2 ^ 23) mod 2 ^ 8 - 150) with (-24). change (IZR (2 ^ 23)) with (IZR (2 ^ Z.of_nat 23)). rewrite <- (pow_IZR 2 23). cbn [powerRZ]. change (Pos.to_nat 24) with 24%nat. cbn [pow]. field.
Qed.
(* save_ply and load_ply *)
Theorem save_load_ply : forall host host' verts faces normals fuel, writable verts (Some faces) normals None -> verts <> [] -> (14 <= fuel)%nat ->
  exists file, save_ply host verts (Some faces) normals false None = Ok file /\ load_ply host' fuel file = Some (Ok (bits_of verts, faces)).
Proof.
  intros host host' verts faces normals fuel W Hne Hf. destruct (binary_round_trip host verts (Some faces) normals None None false W) as (file & S & L). exists file. split.
  - destruct (guards _ _ _ _ W) as (g1 & g2 & g3 & _ & g5 & _). unfold save_ply. rewrite g1, g2, S. destruct normals as [m|]; [|reflexivity]. apply negb_false_iff in g3, g5. rewrite g3, g5. destruct (m_rows m); reflexivity.
  - destruct (L host' fuel Hf) as (v & E & V & _). unfold load_ply. rewrite E. cbn. rewrite V. unfold kept_faces. destruct verts; [easy|]. destruct faces; reflexivity.
Qed.
Print Assumptions save_load_ply.

(* ---- not true ---- *)
(* three columns of one type are taken in the order of the file, whatever their names *)
Theorem ply_columns_by_name_refuted : ~ (forall host fuel big es ps rows e, good_content datum_fits es -> In (e, rows) es -> e_name e = str "vertex" -> e_props e = ps -> Forall (fun p => p_list p = None) ps ->
   has_names ps ["x"; "y"; "z"]%string -> (header_length es <= fuel)%nat ->
   exists v fs, load_ply_data host fuel (binary_file big es) = Some (Ok (PD v fs)) /\ columns_are ps rows ["x"; "y"; "z"]%string (v_verts v)).
Proof. exact names_refuted. Qed.
Print Assumptions ply_columns_by_name_refuted.
(* save_ply lets empty normals through its own check and then fails *)
Theorem ply_empty_normals_refuted : ~ (forall host verts ascii_ decimal_places, good_rows verts -> exists file, save_ply host verts None (Some (M 3 [])) ascii_ decimal_places = Ok file).
Proof. exact empty_normals_refuted. Qed.
Print Assumptions ply_empty_normals_refuted.
(* in text, a float32 or float64 beside a list must be written as an integer *)
Theorem ply_text_types_refuted : ~ (forall host es ps rows polys fuel, good_content datum_fits_text es -> good_vertices es ps rows -> polygons es polys -> at_least_three polys -> (header_length es <= fuel)%nat ->
  exists d, load_ply_data host fuel (text_file es) = Some (Ok d)).
Proof. exact text_types_refuted. Qed.
Print Assumptions ply_text_types_refuted.
