(* C39: OFF files. *)
From Coq Require Import Ascii String ZArith NArith Reals Bool Lia Lra List Permutation.
From Verif Require Import Base RBase Text TextSpec TextProofs Off OffSpec OffProofs OffProofs2 OffProofs3.
Import ListNotations.
Local Open Scope string_scope.
Local Open Scope list_scope.
Local Open Scope Z_scope.

(* lines of a file, for the examples *)
Definition file (ls : list string) : text := concat (map (fun l => str l ++ [nl]) ls).
Definition num (m e : Z) : dec := {| man := m; exp := e |}.

(* Saving a mesh and loading the file gives the same faces and, rounded to the decimals written, the same
   vertices and the same colours per vertex or per face. The loader needs only two steps to find the counts. *)
Theorem off_round_trip : forall verts faces tex decimals, writable verts faces tex ->
  exists file, format_save verts faces tex decimals = Ok file /\
  forall fuel inc, (2 <= fuel)%nat -> exists m, format_read fuel inc file = Some (Ok m) /\ rounded_rows (places decimals) verts (m_verts m) /\ m_faces m = faces /\ same_texture (places decimals) faces tex (m_tex m).
Proof. exact round_trip. Qed.
Print Assumptions off_round_trip.
Example ex_writable : writable [[0; 0.5; -1]; [1; 0; 0]; [0; 1; 3]]%R [[0; 1; 2]; [2; 1; 0]] (Some (FaceColours [[0; 1; 0.25]; [1; 1; 1]]%R)).
Proof. split; [discriminate|]. split; [repeat constructor|]. split; [repeat constructor; cbn; lia|]. split; [reflexivity|]. left. repeat constructor. Qed.

(* A file of polygons with three or more corners each, of equal or of different sizes, is loaded as their
   triangle fans. *)
Theorem off_polygons : forall verts polys fuel inc, verts <> [] -> same_width 3 verts -> List.Forall (fun f => (3 <= length f)%nat /\ List.Forall (fun i => 0 <= i < 2 ^ 24) f) polys -> (2 <= fuel)%nat ->
  exists m, format_read fuel inc (polygon_file verts polys) = Some (Ok m) /\ rounded_rows 6 verts (m_verts m) /\ Permutation (m_faces m) (flat_map fan polys) /\ m_tex m = None.
Proof. exact polygons. Qed.
Print Assumptions off_polygons.
(* a square and a triangle; two squares, whose second triangles come last; numbers and comments anywhere *)
Example ex_mixed : format_read 9 true (file ["OFF"; "# two faces"; "4 2 0 # counts"; "0 0 0"; ""; "1 0 0"; "1 1 0 # corner"; "0 1 0"; "4 0 1 2 3"; "3 2 1 0"]) =
  Some (Ok {| m_verts := map (map (fun z => num z 0)) [[0; 0; 0]; [1; 0; 0]; [1; 1; 0]; [0; 1; 0]]; m_faces := [[0; 1; 2]; [0; 2; 3]; [2; 1; 0]]; m_tex := None |}).
Proof. vm_compute. reflexivity. Qed.
Example ex_squares : option_map (fun r => match r with Ok m => m_faces m | Fail _ => [] end) (format_read 9 true (file ["off"; "4 2 0"; "0 0 0"; "1 0 0"; "1 1 0"; "0 1 0"; "4 0 1 2 3"; "4 3 2 1 0"])) =
  Some [[0; 1; 2]; [3; 2; 1]; [0; 2; 3]; [3; 1; 0]].
Proof. vm_compute. reflexivity. Qed.
Example ex_colours : format_read 9 true (file ["OFF 3 1 0"; "0 0 0"; "1.5 0 0"; "-1e2 1 0"; "3 0 1 2 255 0 51"]) =
  Some (Ok {| m_verts := [[num 0 0; num 0 0; num 0 0]; [num 15 1; num 0 0; num 0 0]; [num (-1) (-2); num 1 0; num 0 0]]; m_faces := [[0; 1; 2]]; m_tex := Some (FaceColours {| by_255 := true; rows_of := [[num 255 0; num 0 0; num 51 0]] |}) |}).
Proof. vm_compute. reflexivity. Qed.

(* Whatever the file, data that are loaded have the shapes documented: at least one vertex, three coordinates
   each, triangles, and as many colours of three or four channels as vertices or triangles. *)
Theorem off_loaded_shape : forall fuel file d, load_off_stream fuel file = Some (Ok d) -> data_shape d.
Proof. exact loaded_shape. Qed.
Print Assumptions off_loaded_shape.

(* The loader terminates on exactly the files in which a meaningful line follows, or completes, the first one;
   and the number of steps granted to it does not change what it returns. *)
Theorem off_terminates_iff : forall file, (exists fuel, load_off_stream fuel file <> None) <-> has_counts_line file.
Proof. exact terminates_iff. Qed.
Print Assumptions off_terminates_iff.
Theorem off_fuel_irrelevant : forall fuel fuel' file r, (fuel <= fuel')%nat -> load_off_stream fuel file = Some r -> load_off_stream fuel' file = Some r.
Proof. exact fuel_irrelevant. Qed.
Print Assumptions off_fuel_irrelevant.
Example ex_counts_line : has_counts_line (file ["# hello"; "OFF"; ""; "1 0 0"]).
Proof. exists [str "# hello" ++ [nl]], (str "OFF" ++ [nl]), [[nl]; str "1 0 0" ++ [nl]]. split; [reflexivity|]. split; [repeat constructor; discriminate|]. split; [reflexivity|]. right. apply Exists_cons_tl, Exists_cons_hd. reflexivity. Qed.

(* FINDING: an empty file, or one with only the word OFF, is read for ever. *)
Theorem off_always_terminates_refuted : ~ (forall file, exists fuel, load_off_stream fuel file <> None).
Proof.
  intros H. specialize (H []). apply terminates_iff in H. destruct H as (b & l & a & E & _). destruct b; discriminate.
Qed.
Print Assumptions off_always_terminates_refuted.
Theorem off_header_only_never_terminates : forall fuel, load_off_stream fuel (file ["OFF"]) = None /\ load_off_stream fuel (str "off") = None.
Proof.
  intros fuel. assert (G : forall l, l = str "OFF" ++ [nl] \/ l = str "off" -> load_off_stream fuel l = None).
  - intros l Hl. destruct (load_off_stream fuel l) as [r|] eqn:E; [|reflexivity]. exfalso. assert (T : exists fuel, load_off_stream fuel l <> None) by (exists fuel; congruence). apply terminates_iff in T. destruct T as (b & x & a & EL & _ & Hx & HA).
    assert (EX : a = [] /\ (x = str "OFF" ++ [nl] \/ x = str "off")) by (destruct Hl as [-> | ->]; cbn in EL; (destruct b as [|? [|]]; [|discriminate|discriminate]); injection EL as <- <-; (split; [reflexivity|]); [left|right]; reflexivity).
    destruct EX as (-> & [-> | ->]); destruct HA as [HA|HA]; try discriminate; inversion HA.
  - split; apply G; [left|right]; reflexivity.
Qed.
Print Assumptions off_header_only_never_terminates.
(* FINDING: a face index above 2^24 is changed, since all numbers of a face line are read as float32. *)
Theorem off_any_index_refuted : format_read 9 true (file ["OFF"; "1 1 0"; "0 0 0"; "3 0 1 16777217"]) =
  Some (Ok {| m_verts := [[num 0 0; num 0 0; num 0 0]]; m_faces := [[0; 1; 16777216]]; m_tex := None |}).
Proof. vm_compute. reflexivity. Qed.
Print Assumptions off_any_index_refuted.
(* FINDING: a mesh without vertices is saved to a file that cannot be loaded. *)
Theorem off_empty_mesh_refuted : exists file, format_save [] [] None None = Ok file /\ forall fuel inc, (2 <= fuel)%nat -> format_read fuel inc file = Some (Fail EValue).
Proof.
  eexists. split; [reflexivity|]. intros fuel inc H. set (f := write_off_data _ _ _ _ _). assert (E : load_off_stream 2 f = Some (Fail EValue)) by (vm_compute; reflexivity). unfold format_read. rewrite (fuel_irrelevant 2 fuel f _ H E). reflexivity.
Qed.
Print Assumptions off_empty_mesh_refuted.
(* FINDING: a comment is allowed between the lines, but not after the last one. *)
Theorem off_trailing_comment_refuted :
  format_read 9 true (file ["OFF"; "1 0 0"; "0 0 0"; "# end"]) = Some (Fail EValue) /\
  format_read 9 true (file ["OFF"; "1 0 0"; "# vertex"; "0 0 0"]) = Some (Ok {| m_verts := [[num 0 0; num 0 0; num 0 0]]; m_faces := []; m_tex := None |}).
Proof. split; vm_compute; reflexivity. Qed.
Print Assumptions off_trailing_comment_refuted.
(* FINDING: include_textures = False still loads the colours. *)
Theorem off_include_textures_refuted : forall fuel file, format_read fuel false file = format_read fuel true file.
Proof. reflexivity. Qed.
Print Assumptions off_include_textures_refuted.
(* Arrays of wrong shapes are refused. *)
Theorem off_save_rejects : forall verts vcol faces fcol d,
  (~ same_width 3 verts \/ (exists c, vcol = Some c /\ c <> [] /\ length c <> length verts) \/ (exists c, fcol = Some c /\ c <> [] /\ (faces = None \/ exists f, faces = Some f /\ length c <> length f)) \/
   (exists f, faces = Some f /\ ~ List.Forall (fun t => length t = 3%nat) f)) ->
  save_off verts vcol faces fcol d = Fail EValue.
Proof.
  intros verts vcol faces fcol d H. unfold save_off. destruct (forallb (fun r => (length r =? 3)%nat) verts) eqn:EV; cbn [negb]; [|reflexivity].
  destruct H as [H|[(c & -> & NE & L)|[(c & -> & NE & H)|(f & -> & H)]]].
  - exfalso. apply H. apply Forall_forall. intros r Hr. rewrite forallb_forall in EV. apply Nat.eqb_eq, EV, Hr.
  - destruct c as [|c0 cs]; [congruence|]. cbv zeta. change (nonempty (Some (c0 :: cs))) with (Some (c0 :: cs)). cbv iota. destruct (Nat.eqb_spec (length (c0 :: cs)) (length verts)) as [|_]; [contradiction|]. cbn [negb]. rewrite orb_true_r. reflexivity.
  - cbv zeta. destruct (match nonempty vcol with Some c1 => _ | None => _ end); [reflexivity|]. destruct (match nonempty faces with Some f => _ | None => _ end); [reflexivity|]. destruct c as [|c0 cs]; [congruence|]. change (nonempty (Some (c0 :: cs))) with (Some (c0 :: cs)). cbv iota.
    destruct H as [->|(f & -> & H)]; [reflexivity|]. destruct f as [|f0 fs]; [reflexivity|]. change (nonempty (Some (f0 :: fs))) with (Some (f0 :: fs)). cbv iota. destruct (Nat.eqb_spec (length (c0 :: cs)) (length (f0 :: fs))) as [|_]; [contradiction|]. cbn [negb]. rewrite orb_true_r. reflexivity.
  - cbv zeta. destruct (match nonempty vcol with Some c1 => _ | None => _ end); [reflexivity|]. destruct f as [|f0 fs]; [exfalso; apply H; constructor|]. change (nonempty (Some (f0 :: fs))) with (Some (f0 :: fs)). cbv iota. destruct (forallb (fun r => (length r =? 3)%nat) (f0 :: fs)) eqn:E; [|reflexivity]. exfalso. apply H. apply Forall_forall. intros r Hr. rewrite forallb_forall in E. apply Nat.eqb_eq, E, Hr.
Qed.
Print Assumptions off_save_rejects.

(* What reading the mesh keeps of the file's contents: a file with both kinds of colours gives vertex colours. *)
Theorem off_texture_choice : forall fuel inc file d, load_off_stream fuel file = Some (Ok d) -> exists m, format_read fuel inc file = Some (Ok m) /\
  m_verts m = o_verts d /\ (forall f, o_faces d = Some f -> m_faces m = f) /\ (o_faces d = None -> m_faces m = []) /\
  (forall c, o_vcol d = Some c -> m_tex m = Some (VertexColours c)) /\
  (forall c, o_vcol d = None -> o_fcol d = Some c -> m_tex m = Some (FaceColours c)) /\
  (o_vcol d = None -> o_fcol d = None -> m_tex m = None).
Proof.
  intros fuel inc file d E. unfold format_read. rewrite E. eexists. split; [reflexivity|]. cbn [m_verts m_faces m_tex]. split; [reflexivity|].
  split; [intros f ->; reflexivity|]. split; [intros ->; reflexivity|]. split; [intros c ->; reflexivity|]. split; [intros c -> ->; reflexivity|]. intros -> ->. reflexivity.
Qed.
Print Assumptions off_texture_choice.
Example ex_both_colours : match load_off_stream 9 (file ["OFF"; "3 1 0"; "0 0 0 255 0 0"; "1 0 0 0 255 0"; "0 1 0 0 0 255"; "3 0 1 2 1 1 1"]) with
  | Some (Ok d) => o_vcol d <> None /\ o_fcol d <> None | _ => False end.
Proof. vm_compute. split; discriminate. Qed.
