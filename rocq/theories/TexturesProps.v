(* C60: TexturesUV.join_scene. *)
From Verif Require Import Base RBase Rectangles Textures TexturesSpec.
From Verif Require TexturesProofs TexturesProofs4 TexturesProofs5.
From Coq Require Import Lra.
Local Open Scope R_scope.

(* Face k of mesh n is face (faces of the earlier meshes + k) of the joined texture, and a pixel of it with
   the same barycentric weights gets the texel it had when mesh n was textured with its own map alone. *)
Theorem joined_scene_samples : forall memory t joined joined_faces joined_verts n id faces verts k f w uv,
  proper memory t -> join_scene memory t = Ok (joined, joined_faces, joined_verts) ->
  nth_error (maps t) n = Some id -> nth_error (faces_uvs t) n = Some faces -> nth_error (verts_uvs t) n = Some verts ->
  nth_error faces k = Some f -> pixel_uv verts f w = Some uv -> total_weight w = 1 -> in_unit uv ->
  (sampling_mode t = Nearest -> ~ halfway (column_of (align_corners t) (memory id) uv) /\ ~ halfway (row_of (align_corners t) (memory id) uv)) ->
  exists f' uv', nth_error joined_faces (sum_nat (map (@length _) (firstn n (faces_uvs t))) + k) = Some f' /\ pixel_uv joined_verts f' w = Some uv' /\
    texel (align_corners t) (padding_mode t) (sampling_mode t) joined uv' = texel (align_corners t) (padding_mode t) (sampling_mode t) (memory id) uv.
Proof. intros. eapply TexturesProofs5.joined_samples; eassumption. Qed.
Print Assumptions joined_scene_samples.

Theorem join_scene_defined : forall memory t, proper memory t ->
  (align_corners t = true -> forall id, In id (maps t) -> (2 <= mh (memory id) /\ 2 <= mw (memory id))%Z) ->
  exists joined joined_faces joined_verts, join_scene memory t = Ok (joined, joined_faces, joined_verts).
Proof. exact TexturesProofs5.join_succeeds. Qed.
Print Assumptions join_scene_defined.

(* the hypotheses are met: three meshes, two of them sharing a map, with a sample in the third *)
Definition demo_memory (id : Z) : tmap := if (id =? 5)%Z then TMap 2 3 (fun i j => IZR (10 * i + j)) else TMap 4 2 (fun i j => IZR (100 + 10 * i + j)).
Definition demo (align : bool) (mode : pad_mode) : uvtex :=
  UV [5; 9; 5]%Z [[(0, 1, 2)%nat]; [(2, 1, 0)%nat]; [(0, 2, 1)%nat; (1, 2, 0)%nat]]
     [[(0, 0); (1, 0); (0, 1)]; [(0, 0); (1, 0); (0, 1)]; [(0, 0); (1, 0); (1 / 2, 1)]] align mode Bilinear.
Example demo_proper align mode : proper demo_memory (demo align mode).
Proof.
  constructor; cbn [maps faces_uvs verts_uvs demo length]; try lia. intros id [<-|[<-|[<-|[]]]]; cbn; lia.
Qed.
Example demo_joins align mode : exists joined fs vs, join_scene demo_memory (demo align mode) = Ok (joined, fs, vs) /\
  pixel_uv [(0, 0); (1, 0); (1 / 2, 1)] (1, 2, 0)%nat (1 / 4, 1 / 4, 1 / 2) = Some (3 / 8, 1 / 4) /\
  exists f' uv', nth_error fs 3 = Some f' /\ pixel_uv vs f' (1 / 4, 1 / 4, 1 / 2) = Some uv' /\ texel align mode Bilinear joined uv' = texel align mode Bilinear (demo_memory 5) (3 / 8, 1 / 4).
Proof.
  destruct (join_scene_defined demo_memory (demo align mode) (demo_proper align mode)) as (G & fs & vs & E).
  { intros _ id [<-|[<-|[<-|[]]]]; cbn; lia. }
  assert (P : pixel_uv [(0, 0); (1, 0); (1 / 2, 1)] (1, 2, 0)%nat (1 / 4, 1 / 4, 1 / 2) = Some (3 / 8, 1 / 4)) by (cbn; do 2 f_equal; lra).
  exists G, fs, vs. split; [exact E|]. split; [exact P|].
  apply (joined_scene_samples demo_memory (demo align mode) G fs vs 2 5%Z _ _ 1%nat (1, 2, 0)%nat _ _ (demo_proper align mode) E eq_refl eq_refl eq_refl eq_refl P).
  - unfold total_weight. cbn. lra.
  - unfold in_unit. cbn. lra.
  - discriminate.
Qed.

(* fewer than two meshes cannot be joined *)
Theorem join_scene_needs_two : forall memory t, (length (maps t) < 2)%nat -> join_scene memory t = Fail EValue.
Proof.
  intros memory t H. unfold join_scene. destruct (maps t) as [|a [|b l]]; [reflexivity|reflexivity|cbn in H; lia].
Qed.
Print Assumptions join_scene_needs_two.

(* With align_corners, two meshes sharing a map one cell high: ZeroDivisionError. *)
Theorem join_scene_defined_refuted : exists memory t, proper memory t /\ join_scene memory t = Fail ERuntime.
Proof.
  exists (fun _ => TMap 1 2 (fun _ _ => 0)), (UV [5; 5]%Z [[]; []] [[]; []] true Border Bilinear). split; [|reflexivity].
  constructor; cbn; try lia; intros id _; lia.
Qed.
Print Assumptions join_scene_defined_refuted.

(* Nearest sampling halfway between two cells: joining moves the map by an odd number of cells, and the
   rounding to even then picks the other cell. *)
Theorem joined_nearest_refuted : exists memory t joined joined_faces joined_verts uv f' uv',
  proper memory t /\ sampling_mode t = Nearest /\ join_scene memory t = Ok (joined, joined_faces, joined_verts) /\
  nth_error (maps t) 0 = Some 5%Z /\ pixel_uv [(1 / 2, 1 / 2)] (0, 0, 0)%nat (1, 0, 0) = Some uv /\ nth_error (faces_uvs t) 0 = Some [(0, 0, 0)%nat] /\
  nth_error (verts_uvs t) 0 = Some [(1 / 2, 1 / 2)] /\ in_unit uv /\
  nth_error joined_faces 0 = Some f' /\ pixel_uv joined_verts f' (1, 0, 0) = Some uv' /\
  texel (align_corners t) (padding_mode t) Nearest joined uv' <> texel (align_corners t) (padding_mode t) Nearest (memory 5%Z) uv.
Proof.
  exists (fun _ => TMap 1 2 (fun _ j => IZR j)), (UV [5; 5]%Z [[(0, 0, 0)%nat]; []] [[(1 / 2, 1 / 2)]; []] false Zeros Nearest).
  do 3 eexists. exists (1 / 2, 1 / 2). do 2 eexists. split; [constructor; cbn; try lia; intros id _; lia|]. split; [reflexivity|]. split; [reflexivity|]. split; [reflexivity|].
  split; [cbn; do 2 f_equal; lra|]. split; [reflexivity|]. split; [reflexivity|]. split; [unfold in_unit; cbn; lra|]. split; [reflexivity|]. split; [reflexivity|].
  cbn [align_corners padding_mode]. unfold texel, grid_sample, source_index. cbn [mh mw fst snd].
  set (y := unnormalize false 1 (1 + 1 / 2 * (-1 - 1))). assert (Ey : y = 0) by (unfold y, unnormalize; lra).
  set (x := unnormalize false 2 (-1 + 1 / 2 * (1 - -1))). assert (Ex : x = 1 / 2) by (unfold x, unnormalize; lra).
  match goal with |- cell _ (nearbyint ?a) (nearbyint ?b) <> _ => assert (EY : a = 1) by (unfold unnormalize; cbn; lra); assert (EX : b = 3 / 2) by (unfold unnormalize; cbn; lra); rewrite EX, EY end.
  rewrite Ey, Ex.
  assert (N : forall z k, IZR k <= z < IZR k + 1 / 2 -> nearbyint z = k).
  { intros z k H. unfold nearbyint. rewrite (TexturesProofs.floor_unique z k) by lra. destruct (Rltb_spec (z - IZR k) (1 / 2)); [reflexivity|lra]. }
  assert (H : forall z k, z = IZR k + 1 / 2 -> nearbyint z = if Z.even k then k else (k + 1)%Z).
  { intros z k E. unfold nearbyint. rewrite (TexturesProofs.floor_unique z k) by lra. destruct (Rltb_spec (z - IZR k) (1 / 2)); [lra|]. destruct (Rltb_spec (1 / 2) (z - IZR k)); [lra|reflexivity]. }
  rewrite (N 1 1%Z) by lra. rewrite (N 0 0%Z) by lra. rewrite (H (3 / 2) 1%Z) by lra. rewrite (H (1 / 2) 0%Z) by lra. cbn. lra.
Qed.
Print Assumptions joined_nearest_refuted.
