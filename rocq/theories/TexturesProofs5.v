From Verif Require Import Base RBase Rectangles RectanglesSpec RectanglesProofs RectanglesProofs2 Textures TexturesSpec TexturesProofs TexturesProofs2 TexturesProofs3 TexturesProofs4.
From Coq Require Import Lra.
Local Open Scope R_scope.

Lemma merged_src align total m loc uv : merged_uv align total m loc uv =
  let T := src m loc in let p := if flipped loc then (1 - snd uv, 1 - fst uv) else uv in
  let o := if align then 1%Z else 0%Z in
  (fst p * (IZR (mw T - o) / IZR (snd total - o)) + IZR (py loc + (1 - o)) / IZR (snd total - o),
   snd p * (IZR (mh T - o) / IZR (fst total - o)) + IZR (fst total - mh T - px loc - (1 - o)) / IZR (fst total - o)).
Proof. unfold merged_uv, src, transpose. destruct (flipped loc); reflexivity. Qed.

Lemma halfway_x align m u v : unnormalize align (mw m) (-1 + u * (1 - -1)) = column_of align m (u, v).
Proof. unfold unnormalize, column_of. cbn [fst]. rewrite ?minus_IZR. destruct align; field. Qed.
Lemma halfway_y align m u v : unnormalize align (mh m) (1 + v * (-1 - 1)) = row_of align m (u, v).
Proof. unfold unnormalize, row_of. cbn [snd]. rewrite ?minus_IZR. destruct align; field. Qed.

Lemma joined_samples memory t G fs vs n id loc_vs loc_fs k f w uv :
  proper memory t -> join_scene memory t = Ok (G, fs, vs) ->
  nth_error (maps t) n = Some id -> nth_error (faces_uvs t) n = Some loc_fs -> nth_error (verts_uvs t) n = Some loc_vs ->
  nth_error loc_fs k = Some f -> pixel_uv loc_vs f w = Some uv -> total_weight w = 1 -> in_unit uv ->
  (sampling_mode t = Nearest -> ~ halfway (column_of (align_corners t) (memory id) uv) /\ ~ halfway (row_of (align_corners t) (memory id) uv)) ->
  exists f' uv', nth_error fs (sum_nat (map (@length _) (firstn n (faces_uvs t))) + k) = Some f' /\ pixel_uv vs f' w = Some uv' /\
    texel (align_corners t) (padding_mode t) (sampling_mode t) G uv' = texel (align_corners t) (padding_mode t) (sampling_mode t) (memory id) uv.
Proof.
  intros P HJ Hi Hf Hv Hk Hp Hw Hu Hn. destruct (joined_value _ _ _ _ _ P HJ) as (total & locs & L & D1 & D2 & -> & -> & ->).
  pose proof (locs_length _ _ _ _ _ L) as LL. pose proof (p_verts _ _ P) as PV. pose proof (p_faces _ _ P) as PF.
  destruct (nth_error locs n) as [loc|] eqn:El; [|apply nth_error_None in El; assert (n < length (maps t))%nat by (apply nth_error_Some; congruence); lia].
  destruct f as ((a, b), c).
  assert (Ec : nth_error (combine (faces_uvs t) (verts_uvs t)) n = Some (loc_fs, loc_vs)).
  { clear - Hf Hv. revert Hf Hv. generalize (faces_uvs t), (verts_uvs t). induction n as [|n IH]; intros [|x l] [|y l'] H H'; try discriminate; cbn in *; [congruence|]. apply IH; assumption. }
  pose proof (merged_faces_nth _ 0 n _ _ k a b c Ec Hk) as F. cbn zeta in F. rewrite Nat.add_0_l in F.
  rewrite (combine_firstn_fst (faces_uvs t) (verts_uvs t) (@length _)) in F by congruence. rewrite (combine_firstn_snd (faces_uvs t) (verts_uvs t) (@length _)) in F by congruence.
  eexists. exists (merged_uv (align_corners t) total (memory id) loc uv). split; [exact F|]. clear F. split.
  - assert (Ee : nth_error (entries (maps t) locs (verts_uvs t)) n = Some (id, loc, loc_vs)) by (rewrite nth_combine3, Hi, El, Hv; reflexivity).
    set (g := fun e : Z * place * list (R * R) => map (merged_uv (align_corners t) total (memory (fst (fst e))) (snd (fst e))) (snd e)).
    pose proof (nth_split _ _ _ Ee) as Es. pose proof (f_equal (fun l => concat (map g l)) Es) as Em. cbn beta in Em. rewrite map_app, concat_app in Em. cbn [map concat] in Em. rewrite Em.
    set (post := concat (map g (skipn (S n) (entries (maps t) locs (verts_uvs t))))).
    set (pre := concat (map g (firstn n (entries (maps t) locs (verts_uvs t))))).
    assert (Lp : length pre = sum_nat (map (@length _) (firstn n (verts_uvs t)))).
    { unfold pre. rewrite length_concat_sum. f_equal. rewrite map_map. transitivity (map (fun e => length (snd e)) (firstn n (entries (maps t) locs (verts_uvs t)))).
      - apply map_ext. intros e. unfold g. apply map_length.
      - unfold entries. apply (combine_firstn_snd _ _ (@length _)). rewrite combine_length. lia. }
    rewrite <- Lp. apply pixel_shift. unfold g. cbn [fst snd]. apply pixel_merged; assumption.
  - destruct (content (align_corners t) (padding_mode t) memory (maps t) (verts_uvs t) total locs (p_sizes _ _ P) PV L n id loc Hi El) as (C1 & C2 & C3).
    set (T := src (memory id) loc) in *. set (align := align_corners t) in *.
    set (p := if flipped loc then (1 - snd uv, 1 - fst uv) else uv).
    transitivity (texel align (padding_mode t) (sampling_mode t) T p); [|unfold T, p, src; destruct (flipped loc); [apply texel_transpose|reflexivity]].
    assert (Bg : (0 < mh T /\ 0 < mw T)%Z) by (apply src_big; apply (p_sizes _ _ P); eapply nth_error_In; exact Hi).
    assert (Up : in_unit p) by (unfold p; destruct (flipped loc); [|exact Hu]; unfold in_unit in *; cbn [fst snd]; lra).
    unfold texel at 1. rewrite merged_src. cbn zeta. fold T. fold p. cbn [fst snd]. unfold texel.
    eapply (joined_texel align (padding_mode t) (sampling_mode t) T (fst total) (snd total) (px loc) (py loc) _ Bg C1 C2 C3 (-1 + fst p * (1 - -1)) (1 + snd p * (-1 - 1))); try reflexivity.
    + apply range_x; [apply Bg|apply Up].
    + rewrite flip_g. apply range_x; [apply Bg|]. destruct Up as (_ & Up). lra.
    + apply position_x. exact D2.
    + apply position_y. exact D1.
    + intros N. specialize (Hn N). rewrite (halfway_x align T (fst p) (snd p)), (halfway_y align T (fst p) (snd p)). unfold T, p, src.
      destruct (flipped loc).
      * destruct Hn as (H1 & H2). cbn [fst snd]. unfold column_of, row_of, transpose in *. cbn [mh mw fst snd] in *. split; [exact H2|]. replace (1 - (1 - fst uv)) with (fst uv) by ring. exact H1.
      * rewrite <- (surjective_pairing uv). exact Hn.
Qed.

Lemma join_succeeds memory t : proper memory t ->
  (align_corners t = true -> forall id, In id (maps t) -> (2 <= mh (memory id) /\ 2 <= mw (memory id))%Z) -> exists G fs vs, join_scene memory t = Ok (G, fs, vs).
Proof.
  intros P H. unfold join_scene. cbn zeta. destruct (plan_ok memory t P) as (total & locs & E & L). rewrite E. cbn [rbind].
  destruct (total_large memory t total locs P L H) as (D1 & D2). rewrite merge_ok by assumption. cbn [rbind]. do 3 eexists. reflexivity.
Qed.
