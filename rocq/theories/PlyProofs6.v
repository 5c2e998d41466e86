(* Writing, and reading back what was written. *)
From Coq Require Import Ascii String ZArith NArith Reals Bool List Permutation Lia Lra.
From Verif Require Import Base RBase Text TextSpec TextProofs Ply PlySpec PlyProofs PlyProofs2 PlyProofs3 PlyProofs4 PlyProofs5.
Import ListNotations.
Local Open Scope list_scope.
Local Open Scope Z_scope.

Lemma le_bytes_eq size : forall z, le_bytes size (Z.to_N (z mod 256 ^ Z.of_nat size)) = little_endian size z.
Proof.
  induction size as [|size IH]; intros z; [reflexivity|].
  assert (P : 0 < 256 ^ Z.of_nat size) by (apply Z.pow_pos_nonneg; lia).
  assert (E : 256 ^ Z.of_nat (S size) = 256 * 256 ^ Z.of_nat size) by (rewrite Nat2Z.inj_succ, Z.pow_succ_r; lia).
  unfold little_endian. cbn [seq map le_bytes]. rewrite <- seq_shift, map_map. f_equal.
  - change (Z.of_nat 0) with 0. change (256 ^ 0) with 1. rewrite Z.div_1_r. f_equal. rewrite E.
    rewrite <- (N2Z.id (Z.to_N (z mod (256 * 256 ^ Z.of_nat size)) mod 256)). f_equal. rewrite N2Z.inj_mod by lia. rewrite Z2N.id by (apply Z.mod_pos_bound; lia). change (Z.of_N 256) with 256.
    rewrite Z.rem_mul_r by lia. rewrite (Z.mul_comm 256 ((z / 256) mod _)), Z_mod_plus_full, Z.mod_mod by lia. reflexivity.
  - replace (Z.to_N (z mod 256 ^ Z.of_nat (S size)) / 256)%N with (Z.to_N ((z / 256) mod 256 ^ Z.of_nat size)).
    + rewrite IH. unfold little_endian. apply map_ext. intros k. rewrite Nat2Z.inj_succ, Z.pow_succ_r by lia. rewrite Z.div_div by (try lia; apply Z.pow_pos_nonneg; lia). reflexivity.
    + rewrite <- (N2Z.id (Z.to_N (z mod 256 ^ Z.of_nat (S size)) / 256)%N). f_equal. rewrite N2Z.inj_div by lia. rewrite Z2N.id by (apply Z.mod_pos_bound; lia). change (Z.of_N 256) with 256.
      rewrite E, Z.rem_mul_r by lia. rewrite Z.add_comm, (Z.mul_comm 256 ((z / 256) mod _)), Z.div_add_l by lia. rewrite (Z.div_small (z mod 256)) by (apply Z.mod_pos_bound; lia). lia.
Qed.
Lemma le_bytes_small size n : (Z.of_N n < 256 ^ Z.of_nat size) -> le_bytes size n = little_endian size (Z.of_N n).
Proof. intros H. rewrite <- le_bytes_eq. f_equal. rewrite Z.mod_small by lia. now rewrite N2Z.id. Qed.

Lemma f2_impl {A B} (P Q : A -> B -> Prop) a b : (forall x y, P x y -> Q x y) -> Forall2 P a b -> Forall2 Q a b.
Proof. intros H. induction 1; constructor; auto. Qed.
(* ---- the content that is written ---- *)
Definition ft : ptype := PT (str "float") 4 Floating.
Definition uct : ptype := PT (str "uchar") 1 Unsigned.
Definition it : ptype := PT (str "int") 4 Signed.
Definition three (t : ptype) (ns : list string) : list prop := map (fun n => Prop_ (str n) t None) ns.
Definition some {A} (o : option A) : bool := match o with Some _ => true | None => false end.
Definition vprops (as_bytes : bool) (normals colors : option matrix) : list prop :=
  three ft ["x"; "y"; "z"]%string ++ (match normals with Some _ => three ft ["nx"; "ny"; "nz"]%string | None => [] end) ++
  (match colors with Some _ => three (if as_bytes then uct else ft) rgb | None => [] end).
Definition rows_of {A} (cell ccell : f32 -> A) (verts : list (list f32)) (normals colors : option matrix) : list (list A) :=
  let rows := map (map cell) verts in
  let tail := match colors with Some m => Some (map (map ccell) (m_rows m)) | None => None end in
  let tail := match normals, tail with Some m, Some t => Some (zip_rows (map (map cell) (m_rows m)) t) | Some m, None => Some (map (map cell) (m_rows m)) | None, t => t end in
  match tail with Some t => zip_rows rows t | None => rows end.
Definition fprop : prop := Prop_ (str "vertex_index") it (Some uct).
Definition written (cell ccell : f32 -> num) (as_bytes : bool) (verts : list (list f32)) (faces : option (list (list Z))) (normals colors : option matrix) : content :=
  (El (str "vertex") (Z.of_nat (length verts)) (vprops as_bytes normals colors), rows_of (fun x => One (cell x)) (fun x => One (ccell x)) verts normals colors) ::
  match verts, faces with _ :: _, Some f => [(El (str "face") (Z.of_nat (length f)) [fprop], map (fun f => [Many (map Whole f)]) f)] | _, _ => [] end.

Lemma zip_assoc {A} : forall (a b c : list (list A)), zip_rows (zip_rows a b) c = zip_rows a (zip_rows b c).
Proof. unfold zip_rows. induction a as [|x a IH]; intros [|y b] [|z c]; cbn; try reflexivity. now rewrite app_assoc, IH. Qed.
Lemma rows_left {A} (cell ccell : f32 -> A) verts normals colors :
  (let rows := map (map cell) verts in
   let rows := match normals with Some m => zip_rows rows (map (map cell) (m_rows m)) | None => rows end in
   match colors with Some m => zip_rows rows (map (map ccell) (m_rows m)) | None => rows end) = rows_of cell ccell verts normals colors.
Proof. unfold rows_of. destruct normals as [n|], colors as [c|]; cbn; try reflexivity. apply zip_assoc. Qed.

(* relations that hold row by row and block by block *)
Lemma zip_f2 {A B} (P P1 P2 : list A -> list B -> Prop) : (forall a b c d, P1 a b -> P2 c d -> P (a ++ c) (b ++ d)) ->
  forall a b c d, length a = length c -> Forall2 P1 a b -> Forall2 P2 c d -> Forall2 P (zip_rows a c) (zip_rows b d).
Proof.
  intros H a b c d Hl H1. revert c d Hl. induction H1 as [|x y a b Hxy H1 IH]; intros c d Hl H2.
  - destruct c; [|easy]. inversion H2; subst. constructor.
  - destruct c as [|z c]; [easy|]. inversion H2 as [|? w ? d' Hzw H2']; subst. unfold zip_rows. cbn. constructor; [now apply H|]. apply IH; auto.
Qed.
Lemma zip_len {A} (a b : list (list A)) : length a = length b -> length (zip_rows a b) = length a.
Proof. intros H. unfold zip_rows. rewrite map_length, combine_length. lia. Qed.
Lemma rows_of_len {A} (cell ccell : f32 -> A) verts normals colors : good_matrix (length verts) normals -> good_matrix (length verts) colors -> length (rows_of cell ccell verts normals colors) = length verts.
Proof.
  intros Hn Hc. unfold rows_of, zip_rows. destruct normals as [n|], colors as [c|]; cbn in Hn, Hc; repeat (rewrite ?map_length, ?combine_length); lia.
Qed.
(* a relation between the rows written in two ways *)
Lemma blocks {A B} (P : list prop -> list A -> list B -> Prop) (cell ccell : f32 -> A) (cell' ccell' : f32 -> B) (as_bytes : bool) verts normals colors :
  (forall (p q : list prop) (a : list A) (b : list B) (c : list A) (d : list B), P p a b -> P q c d -> P (p ++ q)%list (a ++ c)%list (b ++ d)%list) ->
  (forall n1 n2 n3 a b c, (a < 2 ^ 32)%N -> (b < 2 ^ 32)%N -> (c < 2 ^ 32)%N -> P (three ft [n1; n2; n3]) (map cell [a; b; c]) (map cell' [a; b; c])) ->
  (forall a b c, (a < 2 ^ 32)%N -> (b < 2 ^ 32)%N -> (c < 2 ^ 32)%N -> P (three (if as_bytes then uct else ft) rgb) (map ccell [a; b; c]) (map ccell' [a; b; c])) ->
  good_rows verts -> good_matrix (length verts) normals -> good_matrix (length verts) colors ->
  Forall2 (P (vprops as_bytes normals colors)) (rows_of cell ccell verts normals colors) (rows_of cell' ccell' verts normals colors).
Proof.
  intros Happ Hf Hc Gv Gn Gc.
  assert (Bk : forall (p : list prop) (g : f32 -> A) (h : f32 -> B) rows, (forall a b c, (a < 2 ^ 32)%N -> (b < 2 ^ 32)%N -> (c < 2 ^ 32)%N -> P p (map g [a; b; c]) (map h [a; b; c])) -> good_rows rows ->
     Forall2 (P p) (map (map g) rows) (map (map h) rows)).
  { clear. intros p g h rows H G. induction G as [|r rows [Hl Hb] G IH]; [constructor|]. cbn [map]. constructor; auto. destruct r as [|a [|b [|c [|]]]]; try easy.
    rewrite !Forall_cons_iff in Hb. apply H; apply Hb. }
  pose proof (fun n1 n2 n3 => Bk _ cell cell' verts (Hf n1 n2 n3) Gv) as Bv.
  unfold rows_of, vprops. destruct normals as [n|], colors as [c|]; cbn in Gn, Gc.
  - destruct Gn as (_ & Ln & Gn), Gc as (_ & Lc & Gc). eapply zip_f2; [intros ? ? ? ? X Y; apply Happ; [exact X|exact Y]| |apply Bv|].
    { rewrite zip_len; rewrite !map_length; lia. }
    eapply zip_f2; [intros ? ? ? ? X Y; apply Happ; [exact X|exact Y]| |apply Bk; auto|apply Bk; auto]. rewrite !map_length; lia.
  - destruct Gn as (_ & Ln & Gn). rewrite app_nil_r. eapply zip_f2; [intros ? ? ? ? X Y; apply Happ; [exact X|exact Y]| |apply Bv|apply Bk; auto]. rewrite !map_length; lia.
  - destruct Gc as (_ & Lc & Gc). cbn [app]. eapply zip_f2; [intros ? ? ? ? X Y; apply Happ; [exact X|exact Y]| |apply Bv|apply Bk; auto]. rewrite !map_length; lia.
  - rewrite !app_nil_r. apply Bv.
Qed.
Lemma stored_app big p q a b : length a = length p -> stored_row big (p ++ q) (a ++ b) = stored_row big p a ++ stored_row big q b.
Proof.
  intros H. unfold stored_row. rewrite <- concat_app, <- map_app. do 2 f_equal. revert a H. induction p as [|x p IH]; intros [|y a] H; try easy. cbn. now rewrite IH by (cbn in H; lia).
Qed.
Lemma f2_concat {A B} (P : A -> B -> Prop) (f : A -> text) (g : B -> text) la lb : (forall a b, P a b -> f a = g b) -> Forall2 P la lb -> concat (map f la) = concat (map g lb).
Proof. intros H. induction 1 as [|a b la lb Hab _ IH]; [reflexivity|]. cbn. now rewrite (H _ _ Hab), IH. Qed.

Lemma header_same host ascii_ as_bytes verts faces normals colors cell ccell :
  header_lines host ascii_ as_bytes (length verts) (some normals) (some colors) (match verts, faces with _ :: _, Some f => Some (length f) | _, _ => None end) =
  the_header (if ascii_ then FAscii else FBinary host) (map fst (written cell ccell as_bytes verts faces normals colors)).
Proof.
  unfold header_lines, the_header, written, vprops, some. destruct normals, colors, as_bytes, ascii_, host, verts, faces; reflexivity.
Qed.
Definition binary_cells (as_bytes : bool) : f32 -> num := if as_bytes then fun x => Whole (Z.of_N (color_byte x)) else Single.
Lemma color_byte_small c : (color_byte c < 256)%N.
Proof. unfold color_byte. pose proof (Z.mod_pos_bound (round_even (f32_value c * 255)%R) 256 ltac:(lia)). lia. Qed.
Lemma host_stored host a : (a < 2 ^ 32)%N -> host_bytes host 4 a = stored host ft (Single a).
Proof. intros H. unfold host_bytes, stored, ft, t_size. rewrite le_bytes_small by (change (256 ^ Z.of_nat 4) with (2 ^ 32); lia). reflexivity. Qed.
Lemma host_byte host a : (a < 256)%N -> host_bytes host 1 a = stored host uct (Whole (Z.of_N a)).
Proof. intros H. unfold host_bytes, stored, uct, t_size. rewrite le_bytes_small by (change (256 ^ Z.of_nat 1) with 256; lia). reflexivity. Qed.
Lemma host_index host i : host_bytes host 4 (index_bits i) = stored host it (Whole i).
Proof. unfold host_bytes, stored, it, t_size, index_bits. change (2 ^ 32) with (256 ^ Z.of_nat 4). rewrite le_bytes_eq. reflexivity. Qed.
Lemma guards verts faces normals colors : writable verts faces normals colors ->
  negb (forallb (fun r => (length r =? 3)%nat) verts) = false /\
  match faces with Some f => negb (forallb (fun r : list Z => (length r =? 3)%nat) f) | None => false end = false /\
  match normals with Some m => negb (m_width m =? 3)%nat | None => false end = false /\
  match colors with Some m => negb (m_width m =? 3)%nat | None => false end = false /\
  match normals with Some m => negb (length (m_rows m) =? length verts)%nat | None => false end = false /\
  match colors with Some m => negb (length (m_rows m) =? length verts)%nat | None => false end = false.
Proof.
  intros (Gv & Gf & Gn & Gc).
  assert (F : forall A (l : list (list A)), (forall r, In r l -> length r = 3%nat) -> negb (forallb (fun r => (length r =? 3)%nat) l) = false).
  { intros A l H. apply negb_false_iff, forallb_forall. intros r Hr. apply Nat.eqb_eq. auto. }
  unfold good_rows in Gv. rewrite Forall_forall in Gv. repeat split.
  - apply F. intros r Hr. now apply Gv.
  - destruct faces as [f|]; [|reflexivity]. cbn in Gf. rewrite Forall_forall in Gf. apply F. intros r Hr. now apply Gf.
  - destruct normals as [m|]; [|reflexivity]. destruct Gn as (-> & _). reflexivity.
  - destruct colors as [m|]; [|reflexivity]. destruct Gc as (-> & _). reflexivity.
  - destruct normals as [m|]; [|reflexivity]. destruct Gn as (_ & -> & _). rewrite Nat.eqb_refl. reflexivity.
  - destruct colors as [m|]; [|reflexivity]. destruct Gc as (_ & -> & _). rewrite Nat.eqb_refl. reflexivity.
Qed.
Lemma rows_of_nil {A} (cell ccell : f32 -> A) normals colors : rows_of cell ccell [] normals colors = [].
Proof. unfold rows_of. destruct normals, colors; reflexivity. Qed.
Lemma save_binary host verts faces normals colors dp as_bytes : writable verts faces normals colors ->
  save_ply_data host verts faces normals colors false dp as_bytes = Ok (binary_file host (written Single (binary_cells as_bytes) as_bytes verts faces normals colors)).
Proof.
  intros W. destruct (guards _ _ _ _ W) as (g1 & g2 & g3 & g4 & g5 & g6). unfold save_ply_data. rewrite g1, g2, g3, g4.
  pose proof (header_same host false as_bytes verts faces normals colors Single (binary_cells as_bytes)) as Hh. unfold some in Hh. cbv zeta.
  match goal with |- context [header_lines ?a ?b ?c ?d ?e ?f ?g] => replace (header_lines a b c d e f g) with (the_header (FBinary host) (map fst (written Single (binary_cells as_bytes) as_bytes verts faces normals colors))) by (rewrite <- Hh; destruct verts, faces; reflexivity) end. clear Hh.
  destruct verts as [|v verts].
  - unfold binary_file, unlines. replace (binary_data host (written Single (binary_cells as_bytes) as_bytes [] faces normals colors)) with (@nil ascii); [now rewrite app_nil_r|].
    unfold written, binary_data. cbn [map concat fst snd]. rewrite rows_of_nil. destruct faces; reflexivity.
  - rewrite g5, g6. cbv zeta. rewrite rows_left. unfold binary_file, unlines. do 2 f_equal.
    unfold written, binary_data. cbn [map concat fst snd e_props]. f_equal.
    + eapply (f2_concat (fun t r => concat t = stored_row host (vprops as_bytes normals colors) r)); [easy|].
      destruct W as (Gv & Gf & Gn & Gc).
      eapply f2_impl; [|apply (blocks (fun p t r => concat t = stored_row host p r /\ length r = length p) _ _ _ _ as_bytes); auto].
      * now intros a b [].
      * intros p q a b c d [A1 A2] [B1 B2]. rewrite concat_app, A1, B1, stored_app by auto. split; auto. rewrite !app_length. lia.
      * intros n1 n2 n3 a b c Ha Hb Hc. cbn [map three]. rewrite !host_stored by auto. split; reflexivity.
      * intros a b c Ha Hb Hc. unfold binary_cells. destruct as_bytes; cbn [map three rgb]; [rewrite !host_byte by apply color_byte_small|rewrite !host_stored by auto]; split; reflexivity.
    + destruct faces as [f|]; [|reflexivity]. cbn [map concat fst snd e_props]. rewrite app_nil_r, map_map. f_equal. destruct W as (_ & Gf & _). cbn in Gf. apply map_ext_in. intros fc Hfc.
      rewrite Forall_forall in Gf. destruct (Gf _ Hfc) as [Hl _]. unfold stored_row. cbn [combine map concat fst snd stored_datum fprop p_list p_type]. rewrite app_nil_r, map_length, Hl.
      rewrite map_map. replace (map (fun i => host_bytes host 4 (index_bits i)) fc) with (map (fun x => stored host it (Whole x)) fc) by (apply map_ext; intros; now rewrite host_index).
      destruct host; reflexivity.
Qed.
