From Coq Require Import Reals List Bool Arith ZArith Lra Lia Psatz.
From Verif Require Import Base RBase Textures TexturesProofs VertAlign VertAlignSpec VertAlignProofs Atlas AtlasSpec AtlasProofs.
Import ListNotations.
Local Open Scope R_scope.

(* ---- turning the image over ---- *)
Lemma lin_ext f g x : (forall i, f i = g i) -> lin f x = lin g x.
Proof. intros H. unfold lin. rewrite !H. reflexivity. Qed.
Lemma lin_reflect f c x : lin (fun i => f (c - i)%Z) x = lin f (IZR c - x).
Proof.
  pose proof (floor_bounds x) as [A B]. set (k := Int_part x) in *. destruct (Req_dec x (IZR k)) as [E|E].
  - rewrite E, <- minus_IZR, !lin_IZR. reflexivity.
  - assert (F : Int_part (IZR c - x) = (c - k - 1)%Z) by (apply floor_unique; rewrite !minus_IZR; lra).
    unfold lin. rewrite F. fold k. replace (c - k - 1 + 1)%Z with (c - k)%Z by ring. replace (c - (k + 1))%Z with (c - k - 1)%Z by ring.
    rewrite !minus_IZR, plus_IZR. ring.
Qed.
Lemma cell_flip m i j : cell (flip m) i j = cell m (mh m - 1 - i) j.
Proof.
  unfold cell, flip. cbn [mh mw tex].
  destruct (Z.leb_spec 0 i), (Z.ltb_spec i (mh m)), (Z.leb_spec 0 (mh m - 1 - i)), (Z.ltb_spec (mh m - 1 - i) (mh m)); try reflexivity; lia.
Qed.
Lemma sample_flip m p : sample_image (flip m) p = texel true Zeros Bilinear m p.
Proof.
  unfold sample_image, texel, grid_sample, source_index. cbv zeta. rewrite !bilinear_lin. unfold unnormalize.
  change (mh (flip m)) with (mh m). change (mw (flip m)) with (mw m).
  rewrite (lin_ext _ (fun i => (fun k => lin (fun j => cell m k j) ((fst p * 2 - 1 + 1) / 2 * IZR (mw m - 1))) (mh m - 1 - i)%Z)).
  2:{ intros i. apply lin_ext. intros j. apply cell_flip. }
  rewrite (lin_reflect (fun k => lin (fun j => cell m k j) ((fst p * 2 - 1 + 1) / 2 * IZR (mw m - 1)))).
  replace (IZR (mh m - 1) - (snd p * 2 - 1 + 1) / 2 * IZR (mh m - 1)) with ((1 + snd p * (-1 - 1) + 1) / 2 * IZR (mh m - 1)) by field.
  apply lin_ext. intros i. f_equal. field.
Qed.

(* ---- coordinates wrapped ---- *)
Lemma in_on_face g f u : In u (coordinates (on_face g f)) -> exists v, In v (coordinates f) /\ u = g v.
Proof.
  destruct f as [[a b] c]. cbn. intros [H|[H|[H|[H|[H|[H|[]]]]]]]; subst u; eexists; (split; [|reflexivity]); tauto.
Qed.
Lemma fraction_range u : 0 <= fraction u < 1.
Proof. unfold fraction. pose proof (floor_bounds u). lra. Qed.
Lemma clamp_range u : 0 <= clamp_uv u <= 1.
Proof. unfold clamp_uv. split; [apply Rmin_glb; [apply Rmax_r|lra]|apply Rmin_r]. Qed.
Lemma wrapped_unit w fs f : w <> NoWrap -> In f (wrapped w fs) -> unit_range f.
Proof.
  intros W I. destruct w; [| |congruence]; cbn [wrapped] in I.
  - destruct (_ || _)%bool eqn:E.
    + apply in_map_iff in I as (f0 & <- & _). intros u U. destruct (in_on_face _ _ _ U) as (v & _ & ->). pose proof (fraction_range v). lra.
    + apply orb_false_iff in E as [E1 E2]. intros u U.
      assert (N : forall p, existsb (fun f => existsb p (coordinates f)) fs = false -> p u = false).
      { intros p P. destruct (p u) eqn:Q; [|reflexivity]. assert (existsb (fun f => existsb p (coordinates f)) fs = true); [|congruence].
        apply existsb_exists. exists f. split; [exact I|]. apply existsb_exists. exists u. auto. }
      apply N in E1, E2. cbv beta in E1, E2. destruct (Rltb_spec 1 u), (Rltb_spec u 0); try discriminate. lra.
  - apply in_map_iff in I as (f0 & <- & _). intros u U. destruct (in_on_face _ _ _ U) as (v & _ & ->). apply clamp_range.
Qed.
Lemma wrapped_length w fs : length (wrapped w fs) = length fs.
Proof. destruct w; cbn [wrapped]; [destruct (_ || _)%bool| |]; rewrite ?map_length; reflexivity. Qed.
Lemma clamp_same u : 0 <= u <= 1 -> clamp_uv u = u.
Proof. intros H. unfold clamp_uv. rewrite Rmax_left by lra. apply Rmin_left. lra. Qed.
Lemma wrapped_same w fs : (forall f, In f fs -> unit_range f) -> wrapped w fs = fs.
Proof.
  intros H. destruct w; cbn [wrapped]; [| |reflexivity].
  - assert (N : forall p, (forall u, 0 <= u <= 1 -> p u = false) -> existsb (fun f => existsb p (coordinates f)) fs = false).
    { intros p P. destruct (existsb _ fs) eqn:E; [|reflexivity]. apply existsb_exists in E as (f & I & E). apply existsb_exists in E as (u & U & E).
      rewrite P in E by (apply (H f I u U)). discriminate. }
    rewrite !N; [reflexivity| |]; intros u U; [destruct (Rltb_spec u 0)|destruct (Rltb_spec 1 u)]; try reflexivity; lra.
  - rewrite <- (map_id fs) at 2. apply map_ext_in. intros f I. specialize (H f I). destruct f as [[[a1 a2] [b1 b2]] [c1 c2]].
    unfold on_face, on_uv. cbn [fst snd] in *. rewrite !clamp_same; [reflexivity|..]; apply H; cbn; tauto.
Qed.

(* ---- the colours are those of the image ---- *)
Lemma convex_unit a b c w0 w1 w2 : 0 <= a <= 1 -> 0 <= b <= 1 -> 0 <= c <= 1 -> 0 <= w0 -> 0 <= w1 -> 0 <= w2 -> w0 + w1 + w2 = 1 ->
  0 <= a * w0 + b * w1 + c * w2 <= 1.
Proof. intros. nra. Qed.
Lemma uv_unit f w : unit_range f -> inside w -> 0 <= fst (uv_pos f w) <= 1 /\ 0 <= snd (uv_pos f w) <= 1.
Proof.
  intros U I. destruct f as [[[a1 a2] [b1 b2]] [c1 c2]], w as [[w0 w1] w2]. destruct I as (A & B & C & D). unfold uv_pos. cbn [fst snd].
  split; apply convex_unit; try assumption; apply U; cbn; tauto.
Qed.
Lemma flip_between lo hi m : pixels_between lo hi m -> pixels_between lo hi (flip m).
Proof. intros (A & B & C). split; [exact A|]. split; [exact B|]. intros r c Hr Hc. cbn in *. apply C; lia. Qed.
Lemma sample_between lo hi m p : pixels_between lo hi m -> 0 <= fst p <= 1 -> 0 <= snd p <= 1 -> lo <= sample_image m p <= hi.
Proof.
  intros (A & B & C) P Q. unfold sample_image. apply sample_bounds; [exact A|exact B|intros r c (H1 & H2); now apply C|]. right.
  assert (0 <= IZR (mw m - 1)) by (apply (IZR_le 0); lia). assert (0 <= IZR (mh m - 1)) by (apply (IZR_le 0); lia).
  exists (fst p * IZR (mw m - 1)), (snd p * IZR (mh m - 1)). unfold position, among. repeat split; try ring; try nra.
Qed.
Lemma square_between lo hi image n f row c v : (forall m, In m image -> pixels_between lo hi m) -> unit_range f ->
  In row (face_square (map flip (rgb image)) n f) -> In c row -> In v c -> lo <= v <= hi.
Proof.
  intros M U R1 R2 R3. unfold face_square in R1. apply in_map_iff in R1 as (y & <- & Y). apply in_map_iff in R2 as (x & <- & X).
  apply in_map_iff in R3 as (m & <- & I). apply in_map_iff in I as (m0 & <- & I). apply in_seq in X, Y.
  assert (I' : In m0 image) by (unfold rgb in I; destruct (_ =? _)%nat; [rewrite <- (firstn_skipn 3 image); apply in_or_app; now left|exact I]).
  pose proof (bary_inside n x y ltac:(lia) ltac:(lia)) as B. destruct (cell_bary n x y) as [[w0 w1] w2].
  destruct (uv_unit f (w0, w1, w2) U) as [P Q]; [repeat split; lra|]. apply sample_between; [apply flip_between, M, I'|exact P|exact Q].
Qed.

(* ---- all the faces ---- *)
Lemma assign_length names name new atlas : length names = length atlas -> length new = length atlas -> length (assign names name new atlas) = length atlas.
Proof. intros A B. unfold assign. rewrite map_length, !combine_length. lia. Qed.
Lemma assign_nth names name : forall new atlas k nm, length names = length atlas -> length new = length atlas -> nth_error names k = Some nm ->
  nth_error (assign names name new atlas) k = if (nm =? name)%nat then nth_error new k else nth_error atlas k.
Proof.
  unfold assign. induction names as [|a names IH]; intros [|b new] [|c atlas] k nm A B K; cbn in *; try discriminate; destruct k; cbn in *; try discriminate.
  - injection K as ->. destruct (_ =? _)%nat; reflexivity.
  - apply IH; [lia|lia|exact K].
Qed.
Section Folds.
Context {B : Type} (names : list nat) (g : B -> option (list square)).
Let step (a : list square) (p : nat * B) := match g (snd p) with None => a | Some new => assign names (fst p) new a end.
Lemma fold_length ps : forall a, length names = length a -> (forall b new, g b = Some new -> length new = length a) -> length (fold_left step ps a) = length a.
Proof.
  induction ps as [|p ps IH]; intros a N G; [reflexivity|]. cbn [fold_left].
  assert (L : length (step a p) = length a) by (unfold step; destruct (g (snd p)) eqn:E; [apply assign_length; eauto|reflexivity]).
  rewrite IH; [exact L|congruence|intros b new H; rewrite L; eauto].
Qed.
Lemma step_length a p : length names = length a -> (forall b new, g b = Some new -> length new = length a) -> length (step a p) = length a.
Proof. intros N G. unfold step. destruct (g (snd p)) eqn:E; [apply assign_length; eauto|reflexivity]. Qed.
Lemma fold_keep ps : forall a k nm, length names = length a -> (forall b new, g b = Some new -> length new = length a) -> nth_error names k = Some nm ->
  (forall b, In (nm, b) ps -> g b = None) -> nth_error (fold_left step ps a) k = nth_error a k.
Proof.
  induction ps as [|[q b] ps IH]; intros a k nm N G K H; [reflexivity|]. cbn [fold_left].
  pose proof (step_length a (q, b) N G) as L.
  rewrite (IH (step a (q, b)) k nm); [|congruence|intros b' new E; rewrite L; eauto|exact K|intros b' I; apply H; now right].
  unfold step. cbn [fst snd]. destruct (g b) eqn:E; [|reflexivity].
  rewrite (assign_nth names q l a k nm N (G _ _ E) K). destruct (Nat.eqb_spec nm q) as [->|_]; [|reflexivity].
  rewrite (H b) in E by (now left). discriminate.
Qed.
Lemma fold_hit ps : forall a k nm b new, length names = length a -> (forall b new, g b = Some new -> length new = length a) -> nth_error names k = Some nm ->
  NoDup (map fst ps) -> In (nm, b) ps -> g b = Some new -> nth_error (fold_left step ps a) k = nth_error new k.
Proof.
  induction ps as [|[q b0] ps IH]; intros a k nm b new N G K D I E; [destruct I|]. cbn [fold_left map fst] in *. inversion D as [|? ? D1 D2]; subst.
  pose proof (step_length a (q, b0) N G) as L. destruct I as [I|I].
  - injection I as -> ->. rewrite (fold_keep ps (step a (nm, b)) k nm); [|congruence|intros b' new' E'; rewrite L; eauto|exact K|].
    + unfold step. cbn [fst snd]. rewrite E. rewrite (assign_nth names nm new a k nm N (G _ _ E) K), Nat.eqb_refl. reflexivity.
    + intros b' I. exfalso. apply D1. apply (in_map fst) in I. exact I.
  - apply (IH (step a (q, b0)) k nm b new); try assumption; [congruence|]. intros b' new' E'. rewrite L; eauto.
Qed.
End Folds.

Lemma nth_repeat_some {A} (a : A) n k : (k < n)%nat -> nth_error (repeat a n) k = Some a.
Proof. revert k. induction n; intros k H; [lia|]. destruct k; [reflexivity|]. cbn. apply IHn. lia. Qed.
Lemma rmap_nth {A B} (h : A -> result B) : forall l l' k a, rmap h l = Ok l' -> nth_error l k = Some a -> exists b, nth_error l' k = Some b /\ h a = Ok b.
Proof.
  induction l as [|x l IH]; intros l' k a E K; [destruct k; discriminate|]. cbn in E. destruct (h x) as [b|] eqn:X; cbn in E; [|discriminate].
  destruct (rmap h l) eqn:Y; cbn in E; [|discriminate]. injection E as <-. destruct k; cbn in *.
  - injection K as ->. exists b. auto.
  - eapply IH; eauto.
Qed.
Section Mesh.
Variables (props : list (nat * option colour)) (images : list (nat * list tmap)) (names : list nat) (faces : list (triple Z)) (n : nat).
Hypothesis L : length names = length faces.
Hypothesis DP : NoDup (map fst props).
Hypothesis DI : NoDup (map fst images).
Let start := repeat (filled n white) (length faces).
Let gp (c : option colour) := match c with None => None | Some c => Some (repeat (filled n c) (length faces)) end.
Let coloured := fold_left (fun atlas p =>
        match snd p with None => atlas | Some c => assign names (fst p) (repeat (filled n c) (length faces)) atlas end) props start.
Lemma coloured_fold : coloured = fold_left (fun a (p : nat * option colour) => match gp (snd p) with None => a | Some new => assign names (fst p) new a end) props start.
Proof.
  unfold coloured. generalize start. clear DP. induction props as [|[q [c|]] ps IH]; intros a; cbn [fold_left]; [reflexivity|apply IH|apply IH].
Qed.
Lemma start_length : length start = length faces.
Proof. apply repeat_length. Qed.
Lemma gp_length b new : gp b = Some new -> length new = length start.
Proof. rewrite start_length. unfold gp. destruct b; [|discriminate]. intros [= <-]. apply repeat_length. Qed.
Lemma coloured_length : length coloured = length faces.
Proof. rewrite coloured_fold, fold_length; [apply start_length|rewrite start_length; exact L|exact gp_length]. Qed.
Lemma coloured_diffuse k name c : nth_error names k = Some name -> In (name, Some c) props -> nth_error coloured k = Some (filled n c).
Proof.
  intros K I. rewrite coloured_fold. rewrite (fold_hit names gp props start k name (Some c) (repeat (filled n c) (length faces))); try assumption; try reflexivity.
  - apply nth_repeat_some. rewrite <- L. apply nth_error_Some. congruence.
  - rewrite start_length. exact L.
  - exact gp_length.
Qed.
Lemma coloured_white k name : nth_error names k = Some name -> (forall c, ~ In (name, Some c) props) -> nth_error coloured k = Some (filled n white).
Proof.
  intros K H. rewrite coloured_fold. rewrite (fold_keep names gp props start k name); try assumption.
  - apply nth_repeat_some. rewrite <- L. apply nth_error_Some. congruence.
  - rewrite start_length. exact L.
  - exact gp_length.
  - intros [c|] I; [exfalso; apply (H c I)|reflexivity].
Qed.
Lemma mesh_cases vs w a : mesh_atlas props images names faces vs n w = Ok a ->
  (vs = [] \/ (props = [] /\ images = [])) /\ a = coloured \/
  exists fs, rmap (face_uv vs) faces = Ok fs /\ vs <> [] /\
    a = fold_left (fun atlas p => assign names (fst p) (material_atlas (map flip (rgb (snd p))) (wrapped w fs) n) atlas) images coloured.
Proof.
  intros E. unfold mesh_atlas in E. fold start coloured in E.
  assert (E' : (vs = [] \/ (props = [] /\ images = [])) /\ a = coloured \/ (vs <> [] /\
    (fs <- rmap (face_uv vs) faces ;; Ok (fold_left (fun atlas p => assign names (fst p) (material_atlas (map flip (rgb (snd p))) (wrapped w fs) n) atlas) images coloured)) = Ok a)).
  { destruct props as [|p ps] eqn:P, images as [|i is] eqn:I; [left|..]; cbv beta iota in E.
    1:{ injection E as <-. split; [right; auto|reflexivity]. }
    all: destruct vs; [left; injection E as <-; split; [now left|reflexivity]|right; split; [discriminate|exact E]]. }
  destruct E' as [E'|[V E']]; [left; exact E'|]. right. destruct (rmap (face_uv vs) faces) as [fs|] eqn:F; cbn [rbind] in E'; [|discriminate].
  exists fs. injection E' as <-. auto.
Qed.
Lemma mesh_length vs w a : mesh_atlas props images names faces vs n w = Ok a -> length a = length faces.
Proof.
  intros E. destruct (mesh_cases vs w a E) as [[_ ->]|(fs & F & _ & ->)]; [apply coloured_length|].
  assert (Q : length fs = length faces) by (apply (rmap_length _ _ _ F)).
  change (length (fold_left (fun a (p : nat * list tmap) => match (fun i => Some (material_atlas (map flip (rgb i)) (wrapped w fs) n)) (snd p) with None => a | Some new => assign names (fst p) new a end) images coloured) = length faces).
  rewrite fold_length; rewrite ?coloured_length; [reflexivity|exact L|].
  intros b new [= <-]. unfold material_atlas. rewrite map_length, wrapped_length. exact Q.
Qed.
Lemma mesh_face vs w a k name : mesh_atlas props images names faces vs n w = Ok a -> vs <> [] -> nth_error names k = Some name ->
  forall fs f, rmap (face_uv vs) faces = Ok fs -> nth_error (wrapped w fs) k = Some f ->
  exists s, nth_error a k = Some s /\ shows props images n name f s.
Proof.
  intros E V K fs f F W. destruct (mesh_cases vs w a E) as [[[C|[C1 C2]] ->]|(fs' & F' & _ & ->)]; [congruence| |].
  - exists (filled n white). split; [apply (coloured_white k name K); rewrite C1; intros c []|]. apply shows_white; [rewrite C2; intros []|rewrite C1; intros c []].
  - assert (fs' = fs) by congruence. subst fs'. assert (Q : length fs = length faces) by (apply (rmap_length _ _ _ F)).
    set (gi := fun i => Some (material_atlas (map flip (rgb i)) (wrapped w fs) n)).
    change (fold_left _ images coloured) with (fold_left (fun a (p : nat * list tmap) => match gi (snd p) with None => a | Some new => assign names (fst p) new a end) images coloured).
    assert (G : forall b new, gi b = Some new -> length new = length coloured).
    { intros b new [= <-]. unfold material_atlas. rewrite map_length, wrapped_length, coloured_length. exact Q. }
    assert (N : length names = length coloured) by (rewrite coloured_length; exact L).
    destruct (in_dec Nat.eq_dec name (map fst images)) as [I|I].
    + apply in_map_iff in I as ([q image] & Eq & I). cbn in Eq. subst q.
      exists (face_square (map flip (rgb image)) n f). split; [|now constructor].
      rewrite (fold_hit names gi images coloured k name image (material_atlas (map flip (rgb image)) (wrapped w fs) n) N G K DI I eq_refl).
      unfold material_atlas. apply map_nth_error, W.
    + assert (Z : nth_error (fold_left (fun a (p : nat * list tmap) => match gi (snd p) with None => a | Some new => assign names (fst p) new a end) images coloured) k = nth_error coloured k).
      { apply (fold_keep names gi images coloured k name N G K). intros b B. exfalso. apply I, (in_map fst _ _ B). }
      rewrite Z. clear Z.
      assert (D : (exists c, In (name, Some c) props) \/ forall c, ~ In (name, Some c) props).
      { clear. induction props as [|[q [c|]] ps IH].
        - right. intros c [].
        - destruct (Nat.eq_dec q name) as [->|Hq]; [left; exists c; now left|]. destruct IH as [(d & IH)|IH]; [left; exists d; now right|].
          right. intros d [H|H]; [congruence|apply (IH d H)].
        - destruct IH as [(d & IH)|IH]; [left; exists d; now right|]. right. intros d [H|H]; [discriminate|apply (IH d H)]. }
      destruct D as [(c & D)|D].
      * exists (filled n c). split; [apply (coloured_diffuse k name c K D)|now constructor].
      * exists (filled n white). split; [apply (coloured_white k name K D)|now constructor].
Qed.
Lemma mesh_no_uv w a k name : mesh_atlas props images names faces [] n w = Ok a -> nth_error names k = Some name ->
  (forall c, In (name, Some c) props -> nth_error a k = Some (filled n c)) /\
  ((forall c, ~ In (name, Some c) props) -> nth_error a k = Some (filled n white)).
Proof.
  intros E K. destruct (mesh_cases [] w a E) as [[_ ->]|(fs & _ & V & _)]; [|congruence]. split.
  - intros c I. apply (coloured_diffuse k name c K I).
  - intros H. apply (coloured_white k name K H).
Qed.
End Mesh.

(* ---- a read never leaves the map ---- *)
Lemma pick_range n w0 w1 : (0 < n)%nat -> 0 <= w0 -> 0 <= w1 -> exists x y, pick n w0 w1 = (Z.of_nat x, Z.of_nat y) /\ (x < n)%nat /\ (y < n)%nat.
Proof.
  intros N A B. assert (P : 0 < INR n) by (apply lt_0_INR; lia).
  destruct (to_int_nonneg (w0 * INR n)) as (x & X & _); [apply Rmult_le_pos; lra|].
  destruct (to_int_nonneg (w1 * INR n)) as (y & Y & _); [apply Rmult_le_pos; lra|].
  unfold pick. rewrite X, Y. replace (Z.min (Z.of_nat x) (Z.of_nat n - 1)) with (Z.of_nat (Nat.min x (n - 1))) by lia.
  replace (Z.min (Z.of_nat y) (Z.of_nat n - 1)) with (Z.of_nat (Nat.min y (n - 1))) by lia.
  match goal with |- context [Rleb ?a ?b] => destruct (Rleb a b) end.
  - exists (Nat.min x (n - 1)), (Nat.min y (n - 1)). split; [reflexivity|lia].
  - exists (n - 1 - Nat.min x (n - 1))%nat, (n - 1 - Nat.min y (n - 1))%nat. split; [f_equal; lia|lia].
Qed.
