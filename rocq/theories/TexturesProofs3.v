From Verif Require Import Base RBase Rectangles RectanglesSpec RectanglesProofs RectanglesProofs2 Textures TexturesSpec TexturesProofs TexturesProofs2.
From Coq Require Import Lra.
Local Open Scope R_scope.

(* ---- the loop ---- *)
Fixpoint lay (align : bool) (mode : pad_mode) (memory : Z -> tmap) (l : list (Z * place * list (R * R))) (single : Z -> Z -> R) : Z -> Z -> R :=
  match l with
  | [] => single
  | (id, loc, _) :: l' => lay align mode memory l' (if is_first loc then place_map align mode single (memory id) loc else single)
  end.
Lemma merge_ok (align : bool) mode memory (total : Z * Z) l : (fst total <> if align then 1 else 0)%Z -> (snd total <> if align then 1 else 0)%Z -> forall single uvs,
  merge align mode memory total l single uvs =
  Ok (lay align mode memory l single, uvs ++ map (fun e => map (merged_uv align total (memory (fst (fst e))) (snd (fst e))) (snd e)) l).
Proof.
  intros H1 H2. induction l as [|((id, loc), vs) l IH]; intros single uvs; cbn [merge lay map]; [rewrite app_nil_r; reflexivity|].
  apply Z.eqb_neq in H1 as H1', H2 as H2'. replace (fst total =? (if align then 1 else 0))%Z with false. replace (snd total =? (if align then 1 else 0))%Z with false. cbn [orb].
  rewrite IH. rewrite <- app_assoc. reflexivity.
Qed.
Definition big (memory : Z -> tmap) (id : Z) : Prop := (0 < mh (memory id) /\ 0 < mw (memory id))%Z.
Lemma src_big memory id loc : big memory id -> (0 < mh (src (memory id) loc) /\ 0 < mw (src (memory id) loc))%Z.
Proof. unfold big, src, transpose. destruct (flipped loc); cbn; lia. Qed.
Lemma lay_untouched align mode memory r c l : forall single, Forall (fun e => big memory (fst (fst e))) l ->
  Forall (fun e => is_first (snd (fst e)) = true -> ~ contains (room align (memory (fst (fst e)))) (snd (fst e)) r c) l -> lay align mode memory l single r c = single r c.
Proof.
  induction l as [|((id, loc), vs) l IH]; intros single Hb H; [reflexivity|]. apply Forall_cons_iff in Hb, H. cbn [fst snd] in *. destruct Hb as (B & Hb), H as (N & H). cbn [lay]. rewrite IH by assumption.
  destruct (is_first loc) eqn:E; [|reflexivity]. destruct (src_big memory id loc B) as (B1 & B2). apply (proj2 (place_value align mode single (memory id) loc r c B1 B2)). apply N. reflexivity.
Qed.
Lemma lay_app align mode memory a : forall b single, lay align mode memory (a ++ b) single = lay align mode memory b (lay align mode memory a single).
Proof. induction a as [|((id, loc), vs) a IH]; intros; [reflexivity|]. cbn. apply IH. Qed.

(* ---- positions ---- *)
Definition bz (align : bool) : R := IZR (bd align).
Lemma position_x (align : bool) (T : tmap) (TW p : Z) u : (TW <> if align then 1 else 0)%Z ->
  unnormalize align TW (-1 + (u * (IZR (mw T - (if align then 1 else 0)) / IZR (TW - (if align then 1 else 0))) + IZR (p + (1 - (if align then 1 else 0))) / IZR (TW - (if align then 1 else 0))) * (1 - -1)) =
  IZR (p + bd align) + unnormalize align (mw T) (-1 + u * (1 - -1)).
Proof.
  intros H. unfold unnormalize, bd. destruct align; rewrite ?minus_IZR, ?plus_IZR, ?minus_IZR.
  - assert (IZR TW <> 1) by (intros C; apply H; apply eq_IZR; exact C). field. lra.
  - assert (IZR TW <> 0) by (intros C; apply H; apply eq_IZR; exact C). field. lra.
Qed.
Lemma position_y (align : bool) (T : tmap) (TH p : Z) v : (TH <> if align then 1 else 0)%Z ->
  unnormalize align TH (1 + (v * (IZR (mh T - (if align then 1 else 0)) / IZR (TH - (if align then 1 else 0))) + IZR (TH - mh T - p - (1 - (if align then 1 else 0))) / IZR (TH - (if align then 1 else 0))) * (-1 - 1)) =
  IZR (p + bd align) + unnormalize align (mh T) (1 + v * (-1 - 1)).
Proof.
  intros H. unfold unnormalize, bd. destruct align; rewrite ?minus_IZR, ?plus_IZR, ?minus_IZR.
  - assert (IZR TH <> 1) by (intros C; apply H; apply eq_IZR; exact C). field. lra.
  - assert (IZR TH <> 0) by (intros C; apply H; apply eq_IZR; exact C). field. lra.
Qed.
Lemma range_x align size u : (0 < size)%Z -> 0 <= u <= 1 -> let x := unnormalize align size (-1 + u * (1 - -1)) in
  - IZR (bd align) / 2 <= x <= IZR (size - 1) + IZR (bd align) / 2.
Proof.
  intros Hs Hu x. assert (1 <= IZR size) by (apply IZR_le; lia). unfold x, unnormalize, bd. rewrite !minus_IZR. destruct align.
  - replace ((-1 + u * (1 - -1) + 1) / 2 * (IZR size - 1)) with (u * (IZR size - 1)) by field. assert (0 <= u * (IZR size - 1)) by (apply Rmult_le_pos; lra). assert (0 <= (1 - u) * (IZR size - 1)) by (apply Rmult_le_pos; lra). lra.
  - replace (((-1 + u * (1 - -1) + 1) * IZR size - 1) / 2) with (u * IZR size - 1 / 2) by field. assert (0 <= u * IZR size) by (apply Rmult_le_pos; lra). assert (0 <= (1 - u) * IZR size) by (apply Rmult_le_pos; lra). lra.
Qed.
Lemma flip_g v : 1 + v * (-1 - 1) = -1 + (1 - v) * (1 - -1).
Proof. ring. Qed.

(* ---- one texel of the joined map ---- *)
Section One.
Variables (align : bool) (mode : pad_mode) (im : interp_mode) (T : tmap) (TH TW pX pY : Z) (S : Z -> Z -> R).
Hypothesis HT : (0 < mh T)%Z /\ (0 < mw T)%Z.
Hypothesis HX : (0 <= pX)%Z /\ (pX + mh T + 2 * bd align <= TH)%Z.
Hypothesis HY : (0 <= pY)%Z /\ (pY + mw T + 2 * bd align <= TW)%Z.
Hypothesis HS : forall i j, (- bd align <= i < mh T + bd align)%Z -> (- bd align <= j < mw T + bd align)%Z ->
  S (pX + bd align + i)%Z (pY + bd align + j)%Z = if keeps_border align mode then tex T (clampZ (mh T) i) (clampZ (mw T) j) else cell T i j.

Let G := TMap TH TW S.
Lemma joined_cell i j : (- bd align <= i < mh T + bd align)%Z -> (- bd align <= j < mw T + bd align)%Z ->
  cell G (pX + bd align + i) (pY + bd align + j) = if keeps_border align mode then tex T (clampZ (mh T) i) (clampZ (mw T) j) else cell T i j.
Proof.
  intros Hi Hj. rewrite <- HS by assumption. unfold cell, G. cbn [mh mw tex].
  destruct (0 <=? pX + bd align + i)%Z eqn:E1; [|lia]. destruct (pX + bd align + i <? TH)%Z eqn:E2; [|lia]. destruct (0 <=? pY + bd align + j)%Z eqn:E3; [|lia]. destruct (pY + bd align + j <? TW)%Z eqn:E4; [|lia]. reflexivity.
Qed.
Lemma joined_inner i j : (0 <= i < mh T)%Z -> (0 <= j < mw T)%Z -> cell G (pX + bd align + i) (pY + bd align + j) = cell T i j.
Proof.
  intros Hi Hj. assert (0 <= bd align <= 1)%Z by (unfold bd; destruct align; lia). rewrite joined_cell by lia. destruct (keeps_border align mode); [|reflexivity].
  unfold cell. destruct (0 <=? i)%Z eqn:E1; [|lia]. destruct (i <? mh T)%Z eqn:E2; [|lia]. destruct (0 <=? j)%Z eqn:E3; [|lia]. destruct (j <? mw T)%Z eqn:E4; [|lia]. cbn [andb]. f_equal; unfold clampZ; lia.
Qed.

(* x, y: position in the map T; X, Y: position in the joined map *)
Lemma joined_texel gx gy GX GY x y :
  x = unnormalize align (mw T) gx -> y = unnormalize align (mh T) gy ->
  - IZR (bd align) / 2 <= x <= IZR (mw T - 1) + IZR (bd align) / 2 -> - IZR (bd align) / 2 <= y <= IZR (mh T - 1) + IZR (bd align) / 2 ->
  unnormalize align TW GX = IZR (pY + bd align) + x -> unnormalize align TH GY = IZR (pX + bd align) + y ->
  (im = Nearest -> ~ halfway x /\ ~ halfway y) ->
  grid_sample align mode im G GX GY = grid_sample align mode im T gx gy.
Proof.
  pose proof joined_inner as JI. pose proof joined_cell as JC. intros Ex Ey Hx Hy EX EY Hn. unfold grid_sample. cbn [G mh mw].
  assert (Hb : (bd align = 0 \/ bd align = 1)%Z) by (unfold bd; destruct align; lia).
  assert (Hxp : 0 <= IZR (pY + bd align) + x <= IZR (TW - 1)).
  { assert (A : IZR (pY + mw T + 2 * bd align) <= IZR TW) by (apply IZR_le; lia). assert (B : 0 <= IZR pY) by (apply IZR_le; lia). rewrite ?minus_IZR, ?plus_IZR, ?mult_IZR in *. destruct Hb as [Z|Z]; rewrite Z in *; lra. }
  assert (Hyp : 0 <= IZR (pX + bd align) + y <= IZR (TH - 1)).
  { assert (A : IZR (pX + mh T + 2 * bd align) <= IZR TH) by (apply IZR_le; lia). assert (B : 0 <= IZR pX) by (apply IZR_le; lia). rewrite ?minus_IZR, ?plus_IZR, ?mult_IZR in *. destruct Hb as [Z|Z]; rewrite Z in *; lra. }
  rewrite (index_inside align mode TW GX) by (rewrite EX; exact Hxp). rewrite (index_inside align mode TH GY) by (rewrite EY; exact Hyp). rewrite EX, EY.
  assert (Sx : align = true -> source_index align mode (mw T) gx = x) by (intros ->; rewrite index_inside; [symmetry; exact Ex|]; rewrite <- Ex; cbn in Hx; lra).
  assert (Sy : align = true -> source_index align mode (mh T) gy = y) by (intros ->; rewrite index_inside; [symmetry; exact Ey|]; rewrite <- Ey; cbn in Hy; lra).
  assert (Sxc : align = false -> mode <> Zeros -> source_index align mode (mw T) gx = clip (mw T) x).
  { intros -> N. rewrite index_half; [f_equal; symmetry; exact Ex|lia| |exact N]. rewrite <- Ex. rewrite minus_IZR in Hx. cbn in Hx. lra. }
  assert (Syc : align = false -> mode <> Zeros -> source_index align mode (mh T) gy = clip (mh T) y).
  { intros -> N. rewrite index_half; [f_equal; symmetry; exact Ey|lia| |exact N]. rewrite <- Ey. rewrite minus_IZR in Hy. cbn in Hy. lra. }
  destruct im.
  - rewrite !bilinear_lin, lin_shift. destruct align eqn:Ea.
    + (* aligned corners *)
      rewrite (Sx eq_refl), (Sy eq_refl). cbn [bd] in *. apply (lin_inside _ _ (mh T)); [lia|cbn in Hy; lra|]. intros i Hi. rewrite lin_shift. apply (lin_inside _ _ (mw T)); [lia|cbn in Hx; lra|]. intros j Hj.
      exact (JI i j Hi Hj).
    + destruct (keeps_border false mode) eqn:K.
      * (* replicated border *)
        assert (N : mode <> Zeros) by (intros ->; discriminate). rewrite (Sxc eq_refl N), (Syc eq_refl N).
        transitivity (lin (fun i => lin (fun j => tex T (clampZ (mh T) i) (clampZ (mw T) j)) x) y).
        { cbn [bd] in *. rewrite minus_IZR in Hx, Hy. cbn in Hx, Hy. pose proof (floor_bounds y) as By. pose proof (floor_bounds x) as Bx.
          assert (Fy : (-1 <= Int_part y < mh T)%Z) by (split; [apply floor_ge; lra|apply floor_lt; lra]). assert (Fx : (-1 <= Int_part x < mw T)%Z) by (split; [apply floor_ge; lra|apply floor_lt; lra]).
          apply lin_ext; [|intros _]; rewrite lin_shift; (apply lin_ext; [|intros _]); rewrite JC by (cbn [bd]; lia); rewrite ?K; reflexivity. }
        rewrite (lin_clip (fun i => lin (fun j => tex T i (clampZ (mw T) j)) x) (mh T) y); [|lia|rewrite minus_IZR in Hy; cbn in Hy; lra].
        assert (Cy : 0 <= clip (mh T) y <= IZR (mh T - 1)).
        { unfold clip. assert (0 <= IZR (mh T - 1)) by (apply IZR_le; lia). pose proof (Rmax_r y 0). split; [apply Rmin_glb; lra|apply Rmin_l]. }
        assert (Cx : 0 <= clip (mw T) x <= IZR (mw T - 1)).
        { unfold clip. assert (0 <= IZR (mw T - 1)) by (apply IZR_le; lia). pose proof (Rmax_r x 0). split; [apply Rmin_glb; lra|apply Rmin_l]. }
        apply (lin_inside _ _ (mh T)); [lia|exact Cy|]. intros i Hi. rewrite (lin_clip (fun j => tex T i j) (mw T) x); [|lia|rewrite minus_IZR in Hx; cbn in Hx; lra].
        apply (lin_inside _ _ (mw T)); [lia|exact Cx|]. intros j Hj. unfold cell. destruct (0 <=? i)%Z eqn:E1; [|lia]. destruct (i <? mh T)%Z eqn:E2; [|lia]. destruct (0 <=? j)%Z eqn:E3; [|lia]. destruct (j <? mw T)%Z eqn:E4; [|lia]. reflexivity.
      * (* zeros *)
        assert (mode = Zeros) as M by (destruct mode; [reflexivity|discriminate|discriminate]).
        replace (source_index false mode (mw T) gx) with x by (rewrite M; exact Ex). replace (source_index false mode (mh T) gy) with y by (rewrite M; exact Ey).
        cbn [bd] in *. rewrite minus_IZR in Hx, Hy. cbn in Hx, Hy. pose proof (floor_bounds y) as By. pose proof (floor_bounds x) as Bx.
        assert (Fy : (-1 <= Int_part y < mh T)%Z) by (split; [apply floor_ge; lra|apply floor_lt; lra]). assert (Fx : (-1 <= Int_part x < mw T)%Z) by (split; [apply floor_ge; lra|apply floor_lt; lra]).
        apply lin_ext; [|intros _]; rewrite lin_shift; (apply lin_ext; [|intros _]); rewrite JC by (cbn [bd]; lia); rewrite ?K; reflexivity.
  - destruct (Hn eq_refl) as (Nx & Ny). destruct (not_halfway x Nx) as (j & Hj). destruct (not_halfway y Ny) as (i & Hi).
    rewrite (nearbyint_spec (IZR (pY + bd align) + x) (pY + bd align + j)) by (rewrite (plus_IZR (pY + bd align)); lra).
    rewrite (nearbyint_spec (IZR (pX + bd align) + y) (pX + bd align + i)) by (rewrite (plus_IZR (pX + bd align)); lra).
    assert (Jr : (0 <= j < mw T)%Z).
    { rewrite minus_IZR in Hx. split.
      - assert (IZR (-1) < IZR j) by (destruct Hb as [Z|Z]; rewrite Z in Hx; lra). apply lt_IZR in H. lia.
      - apply lt_IZR. destruct Hb as [Z|Z]; rewrite Z in Hx; lra. }
    assert (Ir : (0 <= i < mh T)%Z).
    { rewrite minus_IZR in Hy. split.
      - assert (IZR (-1) < IZR i) by (destruct Hb as [Z|Z]; rewrite Z in Hy; lra). apply lt_IZR in H. lia.
      - apply lt_IZR. destruct Hb as [Z|Z]; rewrite Z in Hy; lra. }
    rewrite JI by assumption.
    assert (Near : forall n z k (s : R), (0 <= k < n)%Z -> IZR k - 1 / 2 < z < IZR k + 1 / 2 -> s = z \/ s = clip n z -> nearbyint s = k).
    { intros n z k s Hk Hz [->| ->]; [apply nearbyint_spec; exact Hz|]. apply nearbyint_spec. unfold clip.
      assert (0 <= IZR k) by (apply IZR_le; lia). assert (IZR k <= IZR (n - 1)) by (apply IZR_le; lia). unfold Rmin, Rmax. destruct (Rle_dec z 0), (Rle_dec (IZR (n - 1)) _); lra. }
    f_equal; symmetry.
    + apply (Near (mh T) y i); auto. destruct align eqn:Ea; [left; apply Sy; reflexivity|]. destruct mode; [left; rewrite Ey; reflexivity|right; apply Syc; [reflexivity|discriminate]|right; apply Syc; [reflexivity|discriminate]].
    + apply (Near (mw T) x j); auto. destruct align eqn:Ea; [left; apply Sx; reflexivity|]. destruct mode; [left; rewrite Ex; reflexivity|right; apply Sxc; [reflexivity|discriminate]|right; apply Sxc; [reflexivity|discriminate]].
Qed.
End One.
