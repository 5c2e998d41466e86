(* C37: reading and writing .obj files. *)
From Coq Require Import Ascii String ZArith Reals Bool List Lia Lra.
From Verif Require Import Base RBase Text TextSpec Ply Obj ObjSpec ObjProofs ObjProofs2 ObjProofs3 ObjProofs4 ObjProofs5 ObjProofs6.
Import ListNotations.
Local Open Scope list_scope.
Local Open Scope Z_scope.

(* ---- reading ---- *)
Theorem obj_reads materials ls is : Forall2 says ls is -> Forall one_line ls -> Forall good_face (faces_of is) ->
  exists o, load_obj materials (file_of ls) = Ok o /\ o_verts o = verts_of is /\ o_uvs o = given (uvs_of is) /\ o_normals o = given (normals_of is) /\
  o_faces o = map (map (fun c => position (length (verts_of is)) (c_vert c))) (flat_map fan (faces_of is)) /\
  o_textures_idx o = map (positions (length (uvs_of is)) c_tex) (flat_map fan (faces_of is)) /\
  o_normals_idx o = map (positions (length (normals_of is)) c_norm) (flat_map fan (faces_of is)) /\ o_mtl o = last_lib is.
Proof. exact (reads materials ls is). Qed.
Print Assumptions obj_reads.
Theorem obj_warns materials ls is o : Forall2 says ls is -> Forall one_line ls -> Forall (fun cs => uniform c_tex cs /\ uniform c_norm cs) (faces_of is) -> load_obj materials (file_of ls) = Ok o ->
  (o_warned o = true <->
   (exists row, In row (o_faces o) /\ ~ in_range (length (verts_of is)) row) \/
   (exists row, In row (o_textures_idx o) /\ row <> [-1; -1; -1] /\ ~ in_range (length (uvs_of is)) row) \/
   (exists row, In row (o_normals_idx o) /\ row <> [-1; -1; -1] /\ ~ in_range (length (normals_of is)) row)).
Proof. exact (warns materials ls is o). Qed.
Print Assumptions obj_warns.
Theorem obj_materials materials ls is o : Forall2 says ls is -> Forall one_line ls -> Forall (fun cs => uniform c_tex cs /\ uniform c_norm cs) (faces_of is) -> load_obj materials (file_of ls) = Ok o ->
  (uses is <> [] \/ (forall f m ms, last_lib is = Some f -> materials f <> Some (m :: ms)) ->
   NoDup (o_names o) /\ (forall n, In n (o_names o) <-> In n (uses is)) /\ Forall2 (material_is (o_names o)) (materials_from None is) (o_materials_idx o)) /\
  (forall f m ms, uses is = [] -> last_lib is = Some f -> materials f = Some (m :: ms) -> o_names o = [m] /\ o_materials_idx o = map (fun _ => 0) (flat_map fan (faces_of is))).
Proof. exact (draws materials ls is o). Qed.
Print Assumptions obj_materials.
(* a face some of whose corners lack a texture or normal index the others have *)
Theorem obj_mixed_face_rejected materials ls is l cs rest : Forall2 says ls is -> Forall one_line (ls ++ l :: rest) -> Forall (fun cs => uniform c_tex cs /\ uniform c_norm cs) (faces_of is) ->
  cs <> [] -> keyword_line "f" (map show_corner cs) l -> ~ (uniform c_tex cs /\ uniform c_norm cs) -> load_obj materials (file_of (ls ++ l :: rest)) = Fail EValue.
Proof. intros H1 H2 H3 H4 H5 H6. apply (refused ls l rest is); auto. intros s. now apply (line_mixed cs). Qed.
Print Assumptions obj_mixed_face_rejected.
(* a face one of whose corners has more than two slashes *)
Theorem obj_long_corner_rejected materials ls is l ws w rest : Forall2 says ls is -> Forall one_line (ls ++ l :: rest) -> Forall (fun cs => uniform c_tex cs /\ uniform c_norm cs) (faces_of is) ->
  keyword_line "f" ws l -> In w ws -> (3 <= count_occ Ascii.ascii_dec w "/"%char)%nat -> load_obj materials (file_of (ls ++ l :: rest)) = Fail EValue.
Proof. intros H1 H2 H3 H4 H5 H6. apply (refused ls l rest is); auto. intros s. now apply (line_long ws w). Qed.
Print Assumptions obj_long_corner_rejected.
(* a vertex or normal with one or two numbers, a texture coordinate with one *)
Theorem obj_short_line_rejected materials ls is l k n xs rest : Forall2 says ls is -> Forall one_line (ls ++ l :: rest) -> Forall (fun cs => uniform c_tex cs /\ uniform c_norm cs) (faces_of is) ->
  (k = "v" /\ n = 3 \/ k = "vt" /\ n = 2 \/ k = "vn" /\ n = 3)%nat%string -> (0 < length xs < n)%nat -> Forall readable xs -> keyword_line k (map show_dec xs) l -> load_obj materials (file_of (ls ++ l :: rest)) = Fail EValue.
Proof. intros H1 H2 H3 H4 H5 H6 H7. apply (refused ls l rest is); auto. intros s. now apply (line_short k n xs). Qed.
Print Assumptions obj_short_line_rejected.

(* ---- writing ---- *)
Theorem obj_round_trip materials stem verts faces decimal_places normals faces_normals_idx verts_uvs faces_uvs texture_map :
  word stem -> verts <> [] \/ faces <> [] ->
  Forall (fun v => length v = 3%nat) verts -> Forall (fun f => length f = 3%nat) faces -> Forall (Forall (fun i => 0 <= i)) faces ->
  has normals = has faces_normals_idx -> each (is_table 3) normals -> each (index_table (length faces)) faces_normals_idx -> each (is_table 2) verts_uvs -> each (index_table (length faces)) faces_uvs ->
  let d := match decimal_places with Some d => d | None => 6%nat end in let saved := has faces_uvs && has verts_uvs && texture_map in
  exists file o, save_obj stem verts faces decimal_places normals faces_normals_idx verts_uvs faces_uvs texture_map = Ok file /\ load_obj materials file = Ok o /\
    o_faces o = faces /\ Forall2 (Forall2 (rounds_to d)) verts (o_verts o) /\
    Forall2 (Forall2 (rounds_to d)) (match normals with Some t => rows t | None => [] end) (rows_of (o_normals o)) /\
    o_normals_idx o = match faces_normals_idx with Some t => rows t | None => map (fun _ => [-1; -1; -1]) faces end /\
    Forall2 (Forall2 (rounds_to d)) (match verts_uvs with Some t => if saved then rows t else [] | None => [] end) (rows_of (o_uvs o)) /\
    o_textures_idx o = match faces_uvs with Some t => if saved then rows t else map (fun _ => [-1; -1; -1]) faces | None => map (fun _ => [-1; -1; -1]) faces end /\
    o_mtl o = (if saved then Some (stem ++ str ".mtl") else None) /\ o_names o = (if saved then [str "mesh"] else []) /\ o_materials_idx o = map (fun _ => if saved then 0 else -1) faces.
Proof. exact (round_trip materials stem verts faces decimal_places normals faces_normals_idx verts_uvs faces_uvs texture_map). Qed.
Print Assumptions obj_round_trip.
Theorem save_obj_shapes_rejected stem verts faces d normals fn uvs fu tm :
  ~ Forall (fun v => length v = 3%nat) verts \/ ~ Forall (fun f => length f = 3%nat) faces \/ has normals <> has fn \/ (exists t, fn = Some t /\ width t <> 3%nat) \/ (exists t, normals = Some t /\ width t <> 3%nat) \/
  (exists t, fu = Some t /\ width t <> 3%nat) \/ (exists t, uvs = Some t /\ width t <> 2%nat) -> save_obj stem verts faces d normals fn uvs fu tm = Fail EValue.
Proof.
  assert (T : forall A (l : list (list A)), threes l = true -> Forall (fun v => length v = 3%nat) l). { intros A l H. unfold threes in H. rewrite forallb_forall in H. apply Forall_forall. intros v Hv. apply Nat.eqb_eq. auto. }
  assert (W : forall A w (t : option (table A)), wide w t = true -> forall u, t = Some u -> width u = w). { intros A w t H u ->. cbn in H. now apply Nat.eqb_eq. }
  intros H. unfold save_obj. destruct (threes verts) eqn:E1; [|reflexivity]. destruct (threes faces) eqn:E2; [|reflexivity]. cbn [negb]. destruct (Bool.eqb (has normals) (has fn)) eqn:E3; [|reflexivity]. apply eqb_prop in E3.
  destruct (wide 3 fn) eqn:E4; [|reflexivity]. destruct (wide 3 normals) eqn:E5; [|reflexivity]. destruct (wide 3 fu) eqn:E6; [|reflexivity]. destruct (wide 2 uvs) eqn:E7; [|reflexivity]. exfalso.
  apply T in E1. apply T in E2. destruct H as [H|[H|[H|[(t & -> & H)|[(t & -> & H)|[(t & -> & H)|(t & -> & H)]]]]]]; auto; apply H; [apply (W _ _ _ E4)|apply (W _ _ _ E5)|apply (W _ _ _ E6)|apply (W _ _ _ E7)]; reflexivity.
Qed.
Print Assumptions save_obj_shapes_rejected.

(* ---- what does not hold ---- *)
Definition text_of (ls : list string) : text := file_of (map str ls).
Definition tab : string := String (chr 9) EmptyString.
(* a tab after the keyword: the vertex is left out, without a word *)
Theorem obj_tab_refuted : ~ (forall materials x y z, Forall readable [x; y; z] ->
  exists o, load_obj materials (str "v" ++ str tab ++ join sp (map show_dec [x; y; z])) = Ok o /\ (o_verts o = [[x; y; z]] \/ o_warned o = true)).
Proof.
  intros H. pose (one := {| man := 1; exp := 0 |}). destruct (H (fun _ => None) one one one) as (o & E & Ho); [repeat (constructor; [unfold readable; cbn; lia|]); constructor|]. vm_compute in E. injection E as <-. cbn in Ho. destruct Ho; discriminate.
Qed.
Print Assumptions obj_tab_refuted.
(* a negative index counts from the last vertex of the file, not from the last one before the face *)
Theorem obj_relative_index_refuted : ~ (forall materials before after cs o, Forall good_face (faces_of (before ++ [Face cs])) -> (forall i, In i after -> exists v, i = Vertex v) ->
  forall ls, Forall2 says ls (before ++ Face cs :: after) -> Forall one_line ls -> load_obj materials (file_of ls) = Ok o -> In (map (fun c => position (length (verts_of before)) (c_vert c)) cs) (o_faces o)).
Proof.
  intros H. pose (v := Vertex [{| man := 1; exp := 0 |}; {| man := 2; exp := 0 |}; {| man := 3; exp := 0 |}]). pose (cs := [C (-3) None None; C (-2) None None; C (-1) None None]).
  pose (ls := map str ["v 1 2 3"; "v 1 2 3"; "v 1 2 3"; "f -3 -2 -1"; "v 1 2 3"]%string).
  assert (L : Forall one_line ls) by (repeat constructor).
  assert (V : says (str "v 1 2 3") v). { split; [reflexivity|]. split; [repeat (constructor; [unfold readable; cbn; lia|]); constructor|]. exists []. apply (keyword_join "v"). repeat constructor; easy. }
  assert (F : says (str "f -3 -2 -1") (Face cs)). { split; [discriminate|]. apply (keyword_join "f"). repeat constructor; easy. }
  assert (G : good_face cs). { split; [right; intros c [<-|[<-|[<-|[]]]]; reflexivity|]. split; [right; intros c [<-|[<-|[<-|[]]]]; reflexivity|]. split; [intros c [<-|[<-|[<-|[]]]]; repeat split; discriminate|]. intros tri [<-|[]]. split; eexists; (split; [left; reflexivity|discriminate]). }
  assert (S : Forall2 says ls ([v; v; v] ++ Face cs :: [v])) by (unfold ls; cbn [map app]; repeat (constructor; auto)).
  destruct (load_obj (fun _ => None) (file_of ls)) as [o|] eqn:E; [|vm_compute in E; discriminate].
  specialize (H (fun _ => None) [v; v; v] [v] cs o ltac:(cbn; repeat (constructor; auto)) ltac:(intros i [<-|[]]; now eexists) ls S L E). vm_compute in E. injection E as <-. cbn in H. destruct H as [H|[]]. discriminate.
Qed.
Print Assumptions obj_relative_index_refuted.
(* the texture indices -1, -1, -1 (the last one, three times) come out as a missing texture *)
Theorem obj_minus_one_refuted : ~ (forall materials ls is o, Forall2 says ls is -> Forall one_line ls -> Forall (fun cs => uniform c_tex cs /\ uniform c_norm cs) (faces_of is) -> load_obj materials (file_of ls) = Ok o ->
  o_textures_idx o = map (positions (length (uvs_of is)) c_tex) (flat_map fan (faces_of is)) \/ o_warned o = true).
Proof.
  intros H. pose (v := Vertex [{| man := 1; exp := 0 |}; {| man := 2; exp := 0 |}; {| man := 3; exp := 0 |}]). pose (t := TexCoord [{| man := 1; exp := 0 |}; {| man := 0; exp := 0 |}]). pose (cs := [C 1 (Some (-1)) None; C 2 (Some (-1)) None; C 3 (Some (-1)) None]).
  pose (ls := map str ["v 1 2 3"; "v 1 2 3"; "v 1 2 3"; "vt 1 0"; "f 1/-1 2/-1 3/-1"]%string).
  assert (L : Forall one_line ls) by (repeat constructor).
  assert (V : says (str "v 1 2 3") v). { split; [reflexivity|]. split; [repeat (constructor; [unfold readable; cbn; lia|]); constructor|]. exists []. apply (keyword_join "v"). repeat constructor; easy. }
  assert (T : says (str "vt 1 0") t). { split; [reflexivity|]. split; [repeat (constructor; [unfold readable; cbn; lia|]); constructor|]. exists []. apply (keyword_join "vt"). repeat constructor; easy. }
  assert (F : says (str "f 1/-1 2/-1 3/-1") (Face cs)). { split; [discriminate|]. apply (keyword_join "f"). repeat constructor; easy. }
  assert (S : Forall2 says ls [v; v; v; t; Face cs]) by (unfold ls; cbn [map]; repeat (constructor; auto)).
  destruct (load_obj (fun _ => None) (file_of ls)) as [o|] eqn:E; [|vm_compute in E; discriminate].
  assert (U : Forall (fun cs => uniform c_tex cs /\ uniform c_norm cs) (faces_of [v; v; v; t; Face cs])). { constructor; [|constructor]. split; [left|right]; intros c [<-|[<-|[<-|[]]]]; (reflexivity || discriminate). }
  specialize (H _ ls _ o S L U E). vm_compute in E. injection E as <-. cbn in H. destruct H; discriminate.
Qed.
Print Assumptions obj_minus_one_refuted.
(* index zero is no index, and is read as the first vertex without a warning *)
Theorem obj_zero_index_refuted : ~ (forall materials ls is o, Forall2 says ls is -> Forall one_line ls -> (exists cs c, In cs (faces_of is) /\ In c cs /\ c_vert c = 0) -> load_obj materials (file_of ls) = Ok o -> o_warned o = true).
Proof.
  intros H. pose (v := Vertex [{| man := 1; exp := 0 |}; {| man := 2; exp := 0 |}; {| man := 3; exp := 0 |}]). pose (cs := [C 0 None None; C 1 None None; C 2 None None]).
  pose (ls := map str ["v 1 2 3"; "v 1 2 3"; "f 0 1 2"]%string).
  assert (L : Forall one_line ls) by (repeat constructor).
  assert (V : says (str "v 1 2 3") v). { split; [reflexivity|]. split; [repeat (constructor; [unfold readable; cbn; lia|]); constructor|]. exists []. apply (keyword_join "v"). repeat constructor; easy. }
  assert (F : says (str "f 0 1 2") (Face cs)). { split; [discriminate|]. apply (keyword_join "f"). repeat constructor; easy. }
  assert (S : Forall2 says ls [v; v; Face cs]) by (unfold ls; cbn [map]; repeat (constructor; auto)).
  destruct (load_obj (fun _ => None) (file_of ls)) as [o|] eqn:E; [|vm_compute in E; discriminate].
  specialize (H _ ls _ o S L ltac:(exists cs, (C 0 None None); cbn; auto) E). vm_compute in E. injection E as <-. discriminate.
Qed.
Print Assumptions obj_zero_index_refuted.
(* a missing texture index (-1) is written as 0 and read back as 0: it now names the first texture coordinate *)
Theorem obj_missing_uv_round_trip_refuted : ~ (forall materials stem faces uvs fu file o, word stem -> Forall (fun f => length f = 3%nat) faces -> Forall (Forall (fun i => 0 <= i)) faces -> is_table 2 uvs -> is_table 3 fu -> length (rows fu) = length faces -> Forall (fun r => r = [-1; -1; -1]) (rows fu) ->
  save_obj stem [] faces None None None (Some uvs) (Some fu) true = Ok file -> load_obj materials file = Ok o -> o_textures_idx o = rows fu).
Proof.
  intros H. pose (u := T 2 ([] : list (list R))). pose (fu := T 3 [[-1; -1; -1]]).
  destruct (save_obj (str "a") [] [[0; 0; 0]] None None None (Some u) (Some fu) true) as [file|] eqn:Es; [|vm_compute in Es; discriminate].
  destruct (load_obj (fun _ => None) file) as [o|] eqn:E; [|vm_compute in Es; injection Es as <-; vm_compute in E; discriminate].
  assert (W : word (str "a")) by (repeat constructor; easy).
  specialize (H (fun _ => None) (str "a") [[0; 0; 0]] u fu file o W ltac:(repeat constructor) ltac:(repeat constructor; lia) ltac:(repeat constructor) ltac:(repeat constructor) eq_refl ltac:(repeat constructor) Es E).
  vm_compute in Es. injection Es as <-. vm_compute in E. injection E as <-. discriminate.
Qed.
Print Assumptions obj_missing_uv_round_trip_refuted.

(* ---- the hypotheses can be met ---- *)
Definition sample : list string := ["# a square"; "mtllib a.mtl"; "v 0 0 0"; "v 1.5 0 0 0.3"; " v  1 1 0"; "v 0 1 0"; ""; "vt 0.5 0.25"; "vn 0 0 1"; "usemtl red"; "f 1/1/1 2/1/1 3/1/-1 -1/1/1"; "usemtl blue"; "f 1//1 2//1 3//1"; "usemtl red"; "f 1 2 3"]%string.
Definition sample_items : list item :=
  let n m e := {| man := m; exp := e |} in
  [Other; Lib (str "a.mtl"); Vertex [n 0 0; n 0 0; n 0 0]; Vertex [n 15 1; n 0 0; n 0 0]; Vertex [n 1 0; n 1 0; n 0 0]; Vertex [n 0 0; n 1 0; n 0 0]; Other; TexCoord [n 5 1; n 25 2]; Normal [n 0 0; n 0 0; n 1 0]; Use (str "red");
   Face [C 1 (Some 1) (Some 1); C 2 (Some 1) (Some 1); C 3 (Some 1) (Some (-1)); C (-1) (Some 1) (Some 1)]; Use (str "blue"); Face [C 1 None (Some 1); C 2 None (Some 1); C 3 None (Some 1)]; Use (str "red"); Face [C 1 None None; C 2 None None; C 3 None None]].
Lemma says_join k ws (P : Forall word ws) : keyword_line k ws (str k ++ sp :: join sp ws).
Proof. now apply keyword_join. Qed.
Ltac words := repeat constructor; easy.
Ltac nums := split; [reflexivity|split; [repeat (constructor; [unfold readable; cbn; lia|]); constructor|]].
Example sample_says : Forall2 says (map str sample) sample_items /\ Forall one_line (map str sample) /\ Forall good_face (faces_of sample_items).
Proof.
  split; [|split].
  - cbn [map sample sample_items]. repeat apply Forall2_cons.
    + exists [str "#"; str "a"; str "square"]. split; [apply (spaced_join [str "#"; str "a"; str "square"]); words|]. split; [intros [H|[H|[H|[H|[H|[]]]]]]; discriminate|discriminate].
    + split; [words|]. apply (says_join "mtllib" [str "a.mtl"]). words.
    + nums. exists []. apply (says_join "v"). words.
    + nums. exists [str "0.3"]. apply (says_join "v" [str "1.5"; str "0"; str "0"; str "0.3"]). words.
    + nums. exists []. exists (str " "), (str " 1 1 0"). split; [reflexivity|]. split; [repeat constructor|]. apply (spaced_more [str "1"; str "1"; str "0"]); [easy|]. apply (spaced_join [str "1"; str "1"; str "0"]). words.
    + nums. exists []. apply (says_join "v"). words.
    + exists []. split; [constructor; constructor|exact I].
    + nums. exists []. apply (says_join "vt"). words.
    + nums. exists []. apply (says_join "vn"). words.
    + exists []. apply (says_join "usemtl" [str "red"]). words.
    + split; [discriminate|]. apply (says_join "f"). words.
    + exists []. apply (says_join "usemtl" [str "blue"]). words.
    + split; [discriminate|]. apply (says_join "f"). words.
    + exists []. apply (says_join "usemtl" [str "red"]). words.
    + split; [discriminate|]. apply (says_join "f"). words.
    + constructor.
  - repeat constructor.
  - cbn. repeat apply Forall_cons; [| | |constructor].
    + split; [left; intros c Hc; cbn in Hc; intuition (subst; discriminate)|]. split; [left; intros c Hc; cbn in Hc; intuition (subst; discriminate)|]. split; [intros c Hc; cbn in Hc; intuition (subst; discriminate)|].
      intros tri [<-|[<-|[]]]; split; eexists; (split; [left; reflexivity|discriminate]).
    + split; [right; intros c Hc; cbn in Hc; intuition (subst; reflexivity)|]. split; [left; intros c Hc; cbn in Hc; intuition (subst; discriminate)|]. split; [intros c Hc; cbn in Hc; intuition (subst; discriminate)|].
      intros tri [<-|[]]; split; eexists; (split; [left; reflexivity|discriminate]).
    + split; [right; intros c Hc; cbn in Hc; intuition (subst; reflexivity)|]. split; [right; intros c Hc; cbn in Hc; intuition (subst; reflexivity)|]. split; [intros c Hc; cbn in Hc; intuition (subst; discriminate)|].
      intros tri [<-|[]]; split; eexists; (split; [left; reflexivity|discriminate]).
Qed.
Example sample_read : exists o, load_obj (fun _ => None) (text_of sample) = Ok o /\ o_faces o = [[0; 1; 2]; [0; 2; 3]; [0; 1; 2]; [0; 1; 2]] /\ o_names o = [str "red"; str "blue"] /\ o_materials_idx o = [0; 0; 1; 0] /\ o_warned o = false.
Proof. eexists. split; [vm_compute; reflexivity|]. repeat split; reflexivity. Qed.
Example round_trip_met : exists file o, save_obj (str "cube") [[1; 0; /2]; [0; 1; 0]; [0; 0; 3]]%R [[0; 1; 2]] (Some 2%nat) (Some (T 3 [[0; 0; 1]]%R)) (Some (T 3 [[0; 0; 0]])) (Some (T 2 [[/2; /4]]%R)) (Some (T 3 [[0; 0; 0]])) true = Ok file /\
  load_obj (fun _ => None) file = Ok o /\ o_faces o = [[0; 1; 2]].
Proof.
  destruct (obj_round_trip (fun _ => None) (str "cube") [[1; 0; /2]; [0; 1; 0]; [0; 0; 3]]%R [[0; 1; 2]] (Some 2%nat) (Some (T 3 [[0; 0; 1]]%R)) (Some (T 3 [[0; 0; 0]])) (Some (T 2 [[/2; /4]]%R)) (Some (T 3 [[0; 0; 0]])) true) as (file & o & E1 & E2 & E3 & _).
  all: try (now repeat constructor). all: try words. all: try (left; discriminate). all: try (repeat constructor; lia). eauto.
Qed.
Example mixed_met : ~ (uniform c_tex [C 1 (Some 1) None; C 2 None None; C 3 (Some 1) None] /\ uniform c_norm [C 1 (Some 1) None; C 2 None None; C 3 (Some 1) None]).
Proof. intros [[H|H] _]; [apply (H (C 2 None None)); cbn; auto|]. specialize (H (C 1 (Some 1) None) (or_introl eq_refl)). discriminate. Qed.
