From Coq Require Import Lra.
From Verif Require Import Base RBase Geom Textures TexturesProofs VertAlign VertAlignSpec.
Local Open Scope R_scope.

(* ---- one-dimensional interpolation ---- *)
Definition lin (f : Z -> R) (x : R) : R := (IZR (Int_part x + 1) - x) * f (Int_part x) + (x - IZR (Int_part x)) * f (Int_part x + 1)%Z.
Lemma bilinear_lin m y x : bilinear m y x = lin (fun i => lin (fun j => cell m i j) x) y.
Proof. unfold bilinear, lin. ring. Qed.
Lemma among_cases n x : among n x -> (0 <= Int_part x < n)%Z /\ ((Int_part x + 1 < n)%Z \/ x = IZR (Int_part x)).
Proof.
  intros (H1 & H2). pose proof (floor_bounds x) as (F1 & F2). pose proof (floor_ge x 0 H1) as G.
  assert (L : (Int_part x <= n - 1)%Z) by (apply le_IZR; lra). split; [lia|].
  destruct (Z.eq_dec (Int_part x) (n - 1)) as [E|E]; [right; rewrite E in *; lra|left; lia].
Qed.
Lemma lin_at f x : x = IZR (Int_part x) -> lin f x = f (Int_part x).
Proof. intros E. unfold lin. rewrite plus_IZR, <- E. ring. Qed.
Lemma lin_IZR f k : lin f (IZR k) = f k.
Proof. rewrite lin_at; rewrite floor_IZR; reflexivity. Qed.
Lemma lin_bounds f n x lo hi : among n x -> (forall i, (0 <= i < n)%Z -> lo <= f i <= hi) -> lo <= lin f x <= hi.
Proof.
  intros A B. destruct (among_cases n x A) as (R1 & [R2|R2]).
  - pose proof (floor_bounds x) as (F1 & F2). pose proof (B _ R1) as B1. pose proof (B (Int_part x + 1)%Z ltac:(lia)) as B2. unfold lin. rewrite plus_IZR.
    set (k := IZR (Int_part x)) in *. set (a := f (Int_part x)) in *. set (b := f (Int_part x + 1)%Z) in *.
    assert (0 <= (k + 1 - x) * (a - lo)) by (apply Rmult_le_pos; lra). assert (0 <= (x - k) * (b - lo)) by (apply Rmult_le_pos; lra).
    assert (0 <= (k + 1 - x) * (hi - a)) by (apply Rmult_le_pos; lra). assert (0 <= (x - k) * (hi - b)) by (apply Rmult_le_pos; lra). split; lra.
  - rewrite lin_at by exact R2. apply B, R1.
Qed.
Lemma lin_affine f n x a b : among n x -> (forall i, (0 <= i < n)%Z -> f i = a + b * IZR i) -> lin f x = a + b * x.
Proof.
  intros A B. destruct (among_cases n x A) as (R1 & [R2|R2]).
  - unfold lin. rewrite (B _ R1), (B (Int_part x + 1)%Z) by lia. rewrite plus_IZR. ring.
  - rewrite lin_at by exact R2. rewrite (B _ R1). rewrite R2 at 2. reflexivity.
Qed.
Lemma cell_on m r c : on_image m r c -> cell m r c = tex m r c.
Proof.
  intros (H1 & H2). unfold cell. replace (0 <=? r)%Z with true by (symmetry; apply Z.leb_le; lia). replace (r <? mh m)%Z with true by (symmetry; apply Z.ltb_lt; lia).
  replace (0 <=? c)%Z with true by (symmetry; apply Z.leb_le; lia). replace (c <? mw m)%Z with true by (symmetry; apply Z.ltb_lt; lia). reflexivity.
Qed.

(* ---- coordinates ---- *)
Lemma unnormalize_position align n g x : (0 < n)%Z -> position align n g x -> among n x -> n <> 1%Z \/ align = false -> unnormalize align n g = x.
Proof.
  intros Hn P A O. unfold position in P. unfold unnormalize. destruct align; [|lra].
  replace ((g + 1) / 2 * IZR (n - 1)) with ((g * IZR (n - 1) + IZR (n - 1)) / 2) by field. lra.
Qed.
Lemma unnormalize_any align n g x : (0 < n)%Z -> position align n g x -> unnormalize align n g = x.
Proof.
  intros Hn P. unfold position in P. unfold unnormalize. destruct align; [|lra].
  replace ((g + 1) / 2 * IZR (n - 1)) with ((g * IZR (n - 1) + IZR (n - 1)) / 2) by field. lra.
Qed.
Lemma clip_among n x : among n x -> clip n x = x.
Proof. intros (H1 & H2). unfold clip. rewrite Rmax_left by lra. rewrite Rmin_right by lra. reflexivity. Qed.
Lemma among_clip n x : (0 < n)%Z -> among n (clip n x).
Proof.
  intros Hn. assert (0 <= IZR (n - 1)) by (apply IZR_le; lia). unfold among, clip. split.
  - apply Rmin_glb; [assumption|apply Rmax_r].
  - apply Rmin_l.
Qed.
Lemma reflect_among_corner n x : (0 < n)%Z -> among n x -> reflect 0 (IZR (n - 1)) x = x.
Proof.
  intros Hn (H1 & H2). unfold reflect. destruct (Reqb_spec 0 (IZR (n - 1))) as [E|E]; [lra|]. cbv zeta. rewrite !Rminus_0_r. rewrite Rabs_pos_eq by lra.
  assert (0 < IZR (n - 1)) by lra. set (s := IZR (n - 1)) in *.
  destruct (Rlt_dec x s) as [L|L].
  - rewrite (floor_unique (x / s) 0); [cbn; lra|]. cbn. split; [apply Rmult_le_reg_r with s; [lra|]; replace (x / s * s) with x by (field; lra); lra|].
    apply Rmult_lt_reg_r with s; [lra|]. replace (x / s * s) with x by (field; lra). lra.
  - assert (x = s) by lra. subst x. replace (s / s) with 1 by (field; lra). rewrite (floor_unique 1 1) by (cbn; lra). cbn. lra.
Qed.
Lemma reflect_among_edge n x : (0 < n)%Z -> among n x -> reflect (-1 / 2) (IZR n - 1 / 2) x = x.
Proof.
  intros Hn (H1 & H2). rewrite minus_IZR in H2. assert (P : 0 < IZR n) by (apply (IZR_lt 0); lia). unfold reflect. destruct (Reqb_spec (-1 / 2) (IZR n - 1 / 2)) as [E|E]; [lra|]. cbv zeta.
  rewrite Rabs_pos_eq by lra. replace (IZR n - 1 / 2 - -1 / 2) with (IZR n) by lra.
  rewrite (floor_unique _ 0); [cbn; lra|]. cbn. split; [apply Rmult_le_reg_r with (IZR n); [lra|]; replace ((x - -1 / 2) / IZR n * IZR n) with (x - -1 / 2) by (field; lra); lra|].
  apply Rmult_lt_reg_r with (IZR n); [lra|]. replace ((x - -1 / 2) / IZR n * IZR n) with (x - -1 / 2) by (field; lra). lra.
Qed.
Lemma source_position align mode n g x : (0 < n)%Z -> position align n g x -> among n x -> source_index align mode n g = x.
Proof.
  intros Hn P A. unfold source_index. cbv zeta. rewrite (unnormalize_any align n g x Hn P).
  destruct mode; [reflexivity|now apply clip_among|]. destruct align; [rewrite reflect_among_corner|rewrite reflect_among_edge]; try assumption; now apply clip_among.
Qed.
Lemma source_inside align mode n g : (0 < n)%Z -> mode <> Zeros -> among n (source_index align mode n g).
Proof. intros Hn M. unfold source_index. destruct mode; [contradiction|now apply among_clip|now apply among_clip]. Qed.
Lemma nearbyint_IZR k : nearbyint (IZR k) = k.
Proof. unfold nearbyint. cbv zeta. rewrite floor_IZR. destruct (Rltb_spec (IZR k - IZR k) (1 / 2)); [reflexivity|lra]. Qed.
Lemma nearbyint_range n x : among n x -> (0 <= nearbyint x < n)%Z.
Proof.
  intros A. destruct (among_cases n x A) as (R1 & R2). pose proof (floor_bounds x) as (F1 & F2). unfold nearbyint. cbv zeta.
  destruct R2 as [R2|R2]; [repeat (match goal with |- context [if ?b then _ else _] => destruct b end); lia|].
  destruct (Rltb_spec (x - IZR (Int_part x)) (1 / 2)); [lia|lra].
Qed.

(* ---- sampling one image ---- *)
Lemma sample_pixel align mode im m gx gy r c : on_image m r c -> position align (mw m) gx (IZR c) -> position align (mh m) gy (IZR r) ->
  grid_sample align mode im m gx gy = tex m r c.
Proof.
  intros O PX PY. pose proof O as (O1 & O2).
  assert (AX : among (mw m) (IZR c)) by (split; [apply (IZR_le 0); lia|apply IZR_le; lia]).
  assert (AY : among (mh m) (IZR r)) by (split; [apply (IZR_le 0); lia|apply IZR_le; lia]).
  unfold grid_sample. rewrite (source_position align mode _ gx (IZR c)), (source_position align mode _ gy (IZR r)) by (assumption || lia). destruct im.
  - rewrite bilinear_lin, lin_IZR, lin_IZR. now apply cell_on.
  - rewrite !nearbyint_IZR. now apply cell_on.
Qed.
Lemma sample_bounds align mode im m gx gy lo hi : (0 < mh m)%Z -> (0 < mw m)%Z ->
  (forall r c, on_image m r c -> lo <= tex m r c <= hi) ->
  (mode <> Zeros \/ exists x y, position align (mw m) gx x /\ position align (mh m) gy y /\ among (mw m) x /\ among (mh m) y) ->
  lo <= grid_sample align mode im m gx gy <= hi.
Proof.
  intros Hh Hw B D.
  assert (A : among (mw m) (source_index align mode (mw m) gx) /\ among (mh m) (source_index align mode (mh m) gy)).
  { destruct D as [D|(x & y & PX & PY & AX & AY)]; [split; now apply source_inside|]. rewrite (source_position align mode _ gx x), (source_position align mode _ gy y) by assumption. now split. }
  destruct A as (AX & AY). unfold grid_sample. cbv zeta. destruct im.
  - rewrite bilinear_lin. apply (lin_bounds _ (mh m)); [exact AY|]. intros i Hi. apply (lin_bounds _ (mw m)); [exact AX|]. intros j Hj. rewrite cell_on by now split. apply B. now split.
  - rewrite cell_on by (split; now apply nearbyint_range). apply B. split; now apply nearbyint_range.
Qed.
Lemma sample_affine align mode m gx gy x y a b d : (0 < mh m)%Z -> (0 < mw m)%Z ->
  (forall r c, on_image m r c -> tex m r c = a + b * IZR r + d * IZR c) ->
  position align (mw m) gx x -> position align (mh m) gy y -> among (mw m) x -> among (mh m) y ->
  grid_sample align mode Bilinear m gx gy = a + b * y + d * x.
Proof.
  intros Hh Hw B PX PY AX AY. unfold grid_sample. cbv zeta. rewrite (source_position align mode _ gx x), (source_position align mode _ gy y) by assumption.
  rewrite bilinear_lin. rewrite (lin_affine _ (mh m) y (a + d * x) b AY); [ring|]. intros i Hi.
  rewrite (lin_affine _ (mw m) x (a + b * IZR i) d AX); [ring|]. intros j Hj. rewrite cell_on by now split. rewrite B by now split. ring.
Qed.

(* ---- normalised device coordinates ---- *)
Lemma ndc_side n other i : (0 < n)%Z -> (0 < other)%Z -> 
  pix_to_ndc (n - 1 - i) n other = (if (other <? n)%Z then IZR n / IZR other else 1) * (1 - (2 * IZR i + 1) / IZR n).
Proof.
  intros Hn Ho. assert (0 < IZR n) by (apply (IZR_lt 0); lia). assert (0 < IZR other) by (apply (IZR_lt 0); lia). unfold pix_to_ndc, ndc_range. rewrite !minus_IZR.
  destruct (other <? n)%Z; field; lra.
Qed.
Lemma ndc_position n i : (0 < n)%Z -> position false n (- (1 - (2 * IZR i + 1) / IZR n)) (IZR i).
Proof. intros Hn. assert (0 < IZR n) by (apply (IZR_lt 0); lia). unfold position. field. lra. Qed.
Lemma ndc_coords h w r c : (0 < h)%Z -> (0 < w)%Z ->
  exists gx gy, ndc_to_grid_sample_coords h w (pix_to_ndc (w - 1 - c) w h, pix_to_ndc (h - 1 - r) h w) = Ok (gx, gy) /\
    position false w gx (IZR c) /\ position false h gy (IZR r).
Proof.
  intros Hh Hw. assert (0 < IZR h) by (apply (IZR_lt 0); lia). assert (0 < IZR w) by (apply (IZR_lt 0); lia).
  unfold ndc_to_grid_sample_coords. replace ((h <=? 0) || (w <=? 0))%Z with false by (symmetry; apply orb_false_iff; split; apply Z.leb_gt; lia). cbn [fst snd].
  rewrite !ndc_side by assumption. destruct (Z.leb_spec w h) as [L|L].
  - rewrite Z.min_r, Z.max_l by lia. replace (h <? w)%Z with false by (symmetry; apply Z.ltb_ge; lia). do 2 eexists. split; [reflexivity|]. split.
    + rewrite Rmult_1_l. now apply ndc_position.
    + destruct (Z.ltb_spec w h).
      * replace (- (IZR h / IZR w * (1 - (2 * IZR r + 1) / IZR h)) * (IZR w / IZR h)) with (- (1 - (2 * IZR r + 1) / IZR h)) by (field; lra). now apply ndc_position.
      * assert (w = h) by lia. subst w. replace (- (1 * (1 - (2 * IZR r + 1) / IZR h)) * (IZR h / IZR h)) with (- (1 - (2 * IZR r + 1) / IZR h)) by (field; lra). now apply ndc_position.
  - rewrite Z.min_l, Z.max_r by lia. replace (h <? w)%Z with true by (symmetry; apply Z.ltb_lt; lia). replace (w <? h)%Z with false by (symmetry; apply Z.ltb_ge; lia). do 2 eexists. split; [reflexivity|]. split.
    + replace (- (IZR w / IZR h * (1 - (2 * IZR c + 1) / IZR w)) * (IZR h / IZR w)) with (- (1 - (2 * IZR c + 1) / IZR w)) by (field; lra). now apply ndc_position.
    + rewrite Rmult_1_l. now apply ndc_position.
Qed.

(* ---- vert_align ---- *)
Definition sampled_of (align : bool) (mode : pad_mode) (im : interp_mode) (grid : list (list vec3)) (images : list (list tmap)) : list (list (list R)) :=
  map (fun p => map (fun v => map (fun m => grid_sample align mode im m (x3 v) (y3 v)) (snd p)) (fst p)) (combine grid images).
Lemma checks_ok n feats : fitting n feats ->
  rmap (check n) feats = Ok (map (fun f => match f with Maps c images => (c, images) | BadRank => (0%nat, []) end) feats).
Proof.
  intros (_ & H). induction feats as [|f feats IH]; [reflexivity|]. cbn [rmap map]. destruct (H f (or_introl eq_refl)) as (c & images & -> & L & _). cbn [check]. rewrite L, Nat.eqb_refl.
  rewrite IH by (intros g I; apply H; right; exact I). reflexivity.
Qed.
Lemma samples_ok align mode im grid feats : fitting (length grid) feats ->
  rmap (sample_feature align mode im grid) (map (fun f => match f with Maps c images => (c, images) | BadRank => (0%nat, []) end) feats) =
  Ok (map (fun f => sampled_of align mode im grid (match f with Maps _ images => images | BadRank => [] end)) feats).
Proof.
  intros (_ & H). induction feats as [|f feats IH]; [reflexivity|]. cbn [rmap map]. destruct (H f (or_introl eq_refl)) as (c & images & -> & L & C & M).
  unfold sample_feature at 1. cbn [snd].
  replace (existsb (existsb (fun m => (mh m <=? 0)%Z || (mw m <=? 0)%Z)) images) with false.
  - rewrite IH by (intros g I; apply H; right; exact I). reflexivity.
  - symmetry. apply not_true_is_false. intros E. apply existsb_exists in E. destruct E as (l & I & E). apply existsb_exists in E. destruct E as (m & IM & E).
    destruct (M l I) as (_ & P). destruct (P m IM) as (P1 & P2). apply orb_prop in E. destruct E as [E|E]; apply Z.leb_le in E; lia.
Qed.
Lemma combine_map2 {A B C D} (f : A * B -> C) (g : A * B -> D) l : combine (map f l) (map g l) = map (fun p => (f p, g p)) l.
Proof. induction l as [|a l IH]; [reflexivity|]. cbn. now rewrite IH. Qed.
