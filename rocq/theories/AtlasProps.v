(* C89: the texture atlas of a mesh, and the colours read from it. *)
From Coq Require Import Reals List Bool Arith ZArith Lra Lia.
From Verif Require Import Base RBase Textures TexturesProofs Atlas AtlasSpec AtlasProofs AtlasProofs2.
Import ListNotations.
Local Open Scope R_scope.

(* Each cell of a face's map belongs to exactly one of the n * n small triangles of the face, and is sampled at its centroid. *)
Theorem atlas_cells n x y : (x < n)%nat -> (y < n)%nat -> exists t, of_size n t /\ cell_of n t = (x, y) /\
  (forall t', of_size n t' -> cell_of n t' = (x, y) -> t' = t) /\
  cell_bary n x y = (fst (centroid n t), snd (centroid n t), 1 - (fst (centroid n t) + snd (centroid n t))).
Proof.
  intros X Y. destruct (cell_small n x y X Y) as (t & A & B & C & w2 & D & W). exists t. split; [exact A|]. split; [exact B|]. split; [exact C|].
  rewrite D, W. reflexivity.
Qed.
Theorem atlas_small_triangles n t : of_size n t -> (fst (cell_of n t) < n)%nat /\ (snd (cell_of n t) < n)%nat.
Proof. intros H. pose proof (centroid_cell n t H) as C. destruct (cell_of n t). cbn. tauto. Qed.
Theorem atlas_cell_inside n x y : (x < n)%nat -> (y < n)%nat -> let '(w0, w1, w2) := cell_bary n x y in
  0 < w0 /\ 0 < w1 /\ 0 < w2 /\ w0 + w1 + w2 = 1.
Proof. exact (bary_inside n x y). Qed.
Lemma uv_at_pos f w : uv_pos f w = uv_at f w.
Proof. destruct f as [[[ax ay] [bx by_]] [cx cy]], w as [[w0 w1] w2]. unfold uv_pos, uv_at. cbn [fst snd]. f_equal; ring. Qed.
(* The colour read at a point of a face that is not on the edge opposite its last vertex is the image at the centroid of
   the small triangle that contains the point: at most 2/(3n) off in each coordinate. *)
Theorem atlas_sample_point image n f atlas k w0 w1 w2 : nth_error atlas k = Some (face_square image n f) -> (0 < n)%nat -> inside (w0, w1, w2) -> 0 < w2 ->
  exists c0 c1 t, of_size n t /\ within n t w0 w1 /\ centroid n t = (c0, c1) /\
    Rabs (w0 - c0) <= 2 / 3 / INR n /\ Rabs (w1 - c1) <= 2 / 3 / INR n /\
    sample_atlas atlas n (Z.of_nat k) (w0, w1, w2) = Ok (map (fun m => sample_image m (uv_at f (c0, c1, 1 - (c0 + c1)))) image).
Proof.
  intros K N I W. destruct (sample_cell image n f atlas k w0 w1 w2 K N I W) as (t & A & B & C). rewrite uv_at_pos in C. destruct (within_near n t w0 w1 N B) as [D E].
  destruct (centroid n t) as [c0 c1] eqn:Z. exists c0, c1, t. cbn [fst snd] in *. auto 8.
Qed.
(* Reading at the centre of a cell gives back the cell, whatever the atlas contains. *)
Theorem atlas_sample_cell (atlas : list square) n k (s : square) y row x c : nth_error atlas k = Some s -> nth_error s y = Some row -> nth_error row x = Some c ->
  (x < n)%nat -> (y < n)%nat -> sample_atlas atlas n (Z.of_nat k) (cell_bary n x y) = Ok c.
Proof.
  intros K S0 R0 X Y. pose proof (sample_centroid n x y X Y) as P. unfold sample_atlas. destruct (cell_bary n x y) as [[w0 w1] w2].
  destruct (Z.ltb_spec (Z.of_nat k) 0); [lia|]. rewrite P. cbv beta iota. rewrite (zget_nat atlas k s K). cbn [rbind]. rewrite (zget_nat s y row S0). cbn [rbind].
  rewrite (zget_nat row x c R0). cbn [rbind]. f_equal. rewrite <- (map_id c) at 2. apply map_ext. intros v. ring.
Qed.
(* A read at any point of a face, its edges included, returns one of the cells of the face. *)
Theorem atlas_sample_defined (atlas : list square) n k (s : square) w0 w1 w2 : nth_error atlas k = Some s -> length s = n -> Forall (fun row => length row = n) s ->
  (0 < n)%nat -> inside (w0, w1, w2) ->
  exists x y row c, nth_error s y = Some row /\ nth_error row x = Some c /\ sample_atlas atlas n (Z.of_nat k) (w0, w1, w2) = Ok c.
Proof.
  intros K L F N (A & B & _). destruct (pick_range n w0 w1 N A B) as (x & y & P & X & Y).
  destruct (nth_error s y) as [row|] eqn:S0; [|apply nth_error_None in S0; lia].
  assert (Lr : length row = n) by (rewrite Forall_forall in F; apply F; apply nth_error_In in S0; exact S0).
  destruct (nth_error row x) as [c|] eqn:R0; [|apply nth_error_None in R0; lia].
  exists x, y, row, c. split; [exact S0|]. split; [exact R0|]. unfold sample_atlas.
  destruct (Z.ltb_spec (Z.of_nat k) 0); [lia|]. rewrite P. cbv beta iota. rewrite (zget_nat atlas k s K). cbn [rbind]. rewrite (zget_nat s y row S0). cbn [rbind].
  rewrite (zget_nat row x c R0). cbn [rbind]. f_equal. rewrite <- (map_id c) at 2. apply map_ext. intros v. ring.
Qed.
(* the corner of a face of one cell *)
Example atlas_corner_case : exists s : square, nth_error [s] 0 = Some s /\ length s = 1%nat /\ Forall (fun row => length row = 1%nat) s /\ inside (1, 0, 0).
Proof. exists [[[1; 0; 0]]]. split; [reflexivity|]. split; [reflexivity|]. split; [repeat constructor|]. repeat split; lra. Qed.
(* Finding: on the edge opposite the last vertex the cell read can be that of a triangle far away. *)
Theorem atlas_edge_refuted : exists n w0 w1 t, inside (w0, w1, 0) /\ of_size n t /\
  pick n w0 w1 = (Z.of_nat (fst (cell_of n t)), Z.of_nat (snd (cell_of n t))) /\ 2 / 3 / INR n < Rabs (w1 - snd (centroid n t)).
Proof.
  exists 3%nat, (1 / 3), (2 / 3), (Down 1 0). split; [repeat split; lra|]. split; [cbn; lia|].
  assert (I : INR 3 = 3) by (cbn; lra). split.
  - unfold pick, to_int. rewrite I. replace (1 / 3 * 3) with 1 by field. replace (2 / 3 * 3) with 2 by field.
    destruct (Rltb_spec 1 0); [lra|]. destruct (Rltb_spec 2 0); [lra|]. rewrite !floor_IZR. cbn [Z.min Z.of_nat Z.sub Z.compare Z.add Z.opp Pos.of_succ_nat Pos.succ Z.pos_sub Pos.pred_double Pos.compare Pos.compare_cont].
    replace ((1 / 3 + 2 / 3) * 3 - (1 + 2)) with 0 by field. destruct (Rleb_spec 0 1); [|lra]. reflexivity.
  - cbn [centroid corners map fst snd rsum fold_right]. rewrite I. cbn [INR]. rewrite Rabs_right; lra.
Qed.
(* Pixels without a face are black in every channel. *)
Theorem atlas_background atlas n face w c : (face < 0)%Z -> sample_atlas atlas n face w = Ok c -> forall v, In v c -> v = 0.
Proof.
  intros F E v V. unfold sample_atlas in E. destruct w as [[w0 w1] w2]. destruct (Z.ltb_spec face 0); [|lia]. cbv beta iota in E.
  destruct (pick n 0 0) as [x y]. destruct (zget atlas face) as [s|]; cbn [rbind] in E; [|discriminate].
  destruct (zget s y) as [row|]; cbn [rbind] in E; [|discriminate]. destruct (zget row x) as [c0|]; cbn [rbind] in E; [|discriminate].
  injection E as <-. apply in_map_iff in V as (u & <- & _). ring.
Qed.
(* The cells of the atlas are what a UV texture of the same image (corners aligned, zeros outside) shows there: the
   reversal of the rows and the two conventions for v cancel. *)
Theorem atlas_same_as_uv image n f y x : (x < n)%nat -> (y < n)%nat -> exists row,
  nth_error (face_square (map flip image) n f) y = Some row /\
  nth_error row x = Some (map (fun m => texel true Zeros Bilinear m (uv_at f (cell_bary n x y))) image).
Proof.
  intros X Y. destruct (square_cell (map flip image) n f x y X Y) as (row & A & B). exists row. split; [exact A|]. rewrite B, map_map. f_equal.
  apply map_ext. intros m. rewrite uv_at_pos. apply sample_flip.
Qed.
(* One map per face; a face shows the image of its material, else the diffuse colour of its material, else white. *)
Theorem atlas_of_mesh props images names faces vs n w a : length names = length faces -> NoDup (map fst props) -> NoDup (map fst images) ->
  mesh_atlas props images names faces vs n w = Ok a -> length a = length faces /\
  (vs <> [] -> forall k name fs f, nth_error names k = Some name -> rmap (face_uv vs) faces = Ok fs -> nth_error (wrapped w fs) k = Some f ->
    exists s, nth_error a k = Some s /\ shows props images n name f s) /\
  (vs = [] -> forall k name, nth_error names k = Some name ->
    (forall c, In (name, Some c) props -> nth_error a k = Some (filled n c)) /\
    ((forall c, ~ In (name, Some c) props) -> nth_error a k = Some (filled n white))).
Proof.
  intros L DP DI E. split; [eapply mesh_length; eassumption|]. split.
  - intros V k name fs f K F W. eapply mesh_face; eassumption.
  - intros -> k name K. eapply mesh_no_uv; eassumption.
Qed.
(* With wrapping, coordinates are in [0, 1] and untouched when they were; then the colours are within the image's range. *)
Theorem atlas_wrap w fs : length (wrapped w fs) = length fs /\ (w <> NoWrap -> forall f, In f (wrapped w fs) -> unit_range f) /\
  ((forall f, In f fs -> unit_range f) -> wrapped w fs = fs).
Proof. split; [apply wrapped_length|]. split; [intros W f; exact (wrapped_unit w fs f W)|exact (wrapped_same w fs)]. Qed.
Theorem atlas_colours_between lo hi image n f row c v : (forall m, In m image -> pixels_between lo hi m) -> unit_range f ->
  In row (face_square (map flip (rgb image)) n f) -> In c row -> In v c -> lo <= v <= hi.
Proof. exact (square_between lo hi image n f row c v). Qed.
(* Finding: with repeat, the coordinates of a face depend on the other faces of the mesh. *)
Definition at_border : triple uv := ((0, 0), (1, 0), (1, 1)).
Definition beyond : triple uv := ((0, 0), (2, 0), (2, 2)).
Theorem atlas_repeat_refuted : exists f g, nth_error (wrapped Repeat [f]) 0 = Some f /\ exists f', nth_error (wrapped Repeat [f; g]) 0 = Some f' /\
  f' = ((0, 0), (0, 0), (0, 0)) /\ f' <> f.
Proof.
  exists at_border, beyond. split.
  - rewrite (wrapped_same Repeat [at_border]); [reflexivity|]. intros f [<-|[]] u U. cbn in U. intuition (subst; lra).
  - exists ((0, 0), (0, 0), (0, 0)). split; [|split; [reflexivity|intros E; injection E; intros; lra]].
    assert (C : existsb (fun f => existsb (fun u => Rltb 1 u) (coordinates f)) [at_border; beyond] = true).
    { apply existsb_exists. exists beyond. split; [cbn; tauto|]. apply existsb_exists. exists 2. split; [cbn; tauto|]. destruct (Rltb_spec 1 2); [reflexivity|lra]. }
    unfold wrapped. rewrite C. cbn [orb nth_error map on_face on_uv at_border fst snd].
    assert (F0 : fraction 0 = 0) by (unfold fraction; rewrite (floor_IZR 0); lra). assert (F1 : fraction 1 = 0) by (unfold fraction; rewrite (floor_IZR 1); lra).
    unfold on_uv. cbn [fst snd]. rewrite F0, F1. reflexivity.
Qed.

(* the hypotheses are met *)
Example ex_point : inside (1 / 2, 1 / 4, 1 / 4) /\ within 2 (Down 0 0) (3 / 8) (3 / 8) /\ of_size 2 (Down 0 0).
Proof. split; [repeat split; lra|]. split; [cbn; lra|cbn; lia]. Qed.
Definition grey : tmap := TMap 2 2 (fun i j => if (i =? j)%Z then 1 else 0).
Example ex_image : pixels_between 0 1 grey /\ unit_range at_border.
Proof.
  split.
  - split; [cbn; lia|]. split; [cbn; lia|]. intros r c _ _. cbn. destruct (_ =? _)%Z; lra.
  - intros u U. cbn in U. intuition (subst; lra).
Qed.
Example ex_mesh : exists a, mesh_atlas [(1%nat, Some [1; 0; 0]); (2%nat, None)] [(2%nat, [grey; grey; grey])] [1%nat; 2%nat; 3%nat]
    [(0, 1, 2)%Z; (0, 1, 2)%Z; (0, 1, -1)%Z] [(0, 0); (1, 0); (1, 1)] 2 Clamp = Ok a /\
  nth_error a 0 = Some (filled 2 [1; 0; 0]) /\ nth_error a 2 = Some (filled 2 white).
Proof. eexists. split; [reflexivity|]. split; reflexivity. Qed.

Print Assumptions atlas_cells.
Print Assumptions atlas_small_triangles.
Print Assumptions atlas_cell_inside.
Print Assumptions atlas_sample_point.
Print Assumptions atlas_sample_cell.
Print Assumptions atlas_sample_defined.
Print Assumptions atlas_edge_refuted.
Print Assumptions atlas_background.
Print Assumptions atlas_same_as_uv.
Print Assumptions atlas_of_mesh.
Print Assumptions atlas_wrap.
Print Assumptions atlas_colours_between.
Print Assumptions atlas_repeat_refuted.
