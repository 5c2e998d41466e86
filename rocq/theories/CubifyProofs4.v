(* cubify: the whole function. *)
From Coq Require Import Lra.
From Verif Require Import Base Packing PackingProofs RBase Geom FaceAreas FaceAreasSpec MeshesSpec Meshes MeshesHistSpec MeshesProofs7 MeshesProofs8 Subdivide SubdivideProofs SubdivideProofs3 Cubify CubifySpec CubifyProofs CubifyProofs2 CubifyProofs3.
From Verif Require PointcloudsProofs2 SubdivideProofs5 MeshesProofs11.
Local Open Scope nat_scope.

Lemma py_at {A} (l : list A) k x : nth_error l k = Some x -> py_nth l (Z.of_nat k) = Ok x.
Proof. intros E. apply py_nth_index. left. split; [lia|]. rewrite Nat2Z.id. exact E. Qed.
Lemma rows_of_nth {F} N V : forall (l : list F) n, n < N -> nth_error (rows_of N V l) n = Some (firstn V (skipn (n * V) l)).
Proof.
  induction N as [|N IH]; intros l n Hn; [lia|]. cbn [rows_of]. destruct n as [|n]; [reflexivity|]. cbn [nth_error]. rewrite IH by lia. rewrite skip_skip. do 3 f_equal. cbn. lia.
Qed.
Lemma rows_of_len {F} N V (l : list F) : length (rows_of N V l) = N.
Proof. revert l. induction N; intros l; cbn; [reflexivity|]. f_equal. auto. Qed.
Lemma cumsum_len l : forall acc, length (cumsum_from acc l) = length l.
Proof. induction l as [|a l IH]; intros acc; cbn; [reflexivity|]. f_equal. apply IH. Qed.
Lemma skipn_nth {A} k (l : list A) i : nth_error (skipn k l) i = nth_error l (k + i).
Proof. revert l. induction k as [|k IH]; intros l; [reflexivity|]. destruct l as [|x l]; [destruct i; reflexivity|]. cbn. apply IH. Qed.

Section Cubify.
Variables (N D H W : nat) (vox : nat -> nat -> nat -> nat -> R) (thresh : R).
Notation tris := (all_tris D H W vox thresh).
Notation expn := (exp D H W vox thresh).
Let gp := grid (H + 1) (W + 1) (D + 1).
Let NV := length gp.
Definition rav (p : pt) : Z := let '(x, y, z) := p in ravel_index (Z.of_nat H + 1, Z.of_nat W + 1, Z.of_nat D + 1)%Z (y, x, z).
Definition face_of (t : tri) : face := let '(a, b, c) := t in (rav a, rav b, rav c).

Lemma rav_pos g : rav (pt_of g) = Z.of_nat (pos3 (H + 1) (W + 1) (D + 1) g).
Proof. destruct g as ((h, w), d). unfold rav, pt_of, ravel_index, pos3. lia. Qed.
Lemma rav_nth g : In g gp -> nth_error gp (Z.to_nat (rav (pt_of g))) = Some g /\ (0 <= rav (pt_of g) < Z.of_nat NV)%Z.
Proof.
  intros Hg. rewrite rav_pos, Nat2Z.id. pose proof (grid_nth _ _ _ g Hg) as E. split; [exact E|]. fold gp in E. assert (pos3 (H + 1) (W + 1) (D + 1) g < length gp) by (apply nth_error_Some; congruence). unfold NV. lia.
Qed.
Lemma corner_value h w d v : v < 8 -> grid_corner D H W (Z.of_nat h, Z.of_nat w, Z.of_nat d) v = Ok (rav (plus (pt_of (h, w, d)) (nth v cube_verts (0, 0, 0)%Z))).
Proof.
  intros Hv. unfold grid_corner, rget. destruct (nth_error cube_verts v) as [((x, y), z)|] eqn:E.
  - cbn [rbind]. rewrite (nth_error_nth _ _ _ E). unfold rav, pt_of, plus. do 2 f_equal. f_equal; [f_equal|]; lia.
  - apply nth_error_None in E. cbn in E. lia.
Qed.
Lemma grid_face_value n h w d k : In (n, h, w, d) (cells N H W D) -> k < 12 ->
  grid_face D H W (Z.of_nat (pos4 H W D (n, h, w, d)), k) = Ok (Z.of_nat n, face_of (tri_at (pt_of (h, w, d)) k)).
Proof.
  intros Hc Hk. unfold grid_face. cbn [fst snd]. rewrite (unravel_pos N H W D n h w d Hc). unfold tri_at, tri0.
  do 12 (destruct k as [|k]; [cbn [rget cube_faces nth_error nth rbind]; unfold rget; cbn [nth_error rbind]; rewrite !corner_value by lia; reflexivity|]). lia.
Qed.
(* cells of one mesh *)
Definition ks (n : nat) (c : nat * nat * nat) : list nat := filter (fun k => expn n (pt_of c) (side_of_face k)) (seq 0 12).
Lemma linind_value : linind N D H W vox thresh =
  flat_map (fun n => flat_map (fun c => map (fun k => (Z.of_nat (pos4 H W D (cell_at n c)), k)) (ks n c)) (grid H W D)) (seq 0 N).
Proof.
  unfold linind. change 0%Z with (Z.of_nat 0). rewrite (nonzero_cells (pos4 H W D)).
  2:{ rewrite cells_pos. rewrite <- (map_length (pos4 H W D)), cells_pos, seq_length. reflexivity. }
  rewrite cells_grid, flat_map_flat. apply fm_ext. intros n _. rewrite flat_map_map. apply fm_ext. intros ((h, w), d) Hc. apply grid_in in Hc. cbn [cell_at].
  change (length cube_faces) with 12. rewrite cols_map. unfold ks. f_equal. apply filter_ext_in. intros k Hk. apply in_seq in Hk. apply mask_exposed; lia.
Qed.
Lemma ks_lt n c k : In k (ks n c) -> k < 12.
Proof. intros Hk. apply filter_In in Hk. destruct Hk as (Hk & _). apply in_seq in Hk. lia. Qed.
Lemma nf_value : rmap (grid_face D H W) (linind N D H W vox thresh) = Ok (flat_map (fun n => map (fun t => (Z.of_nat n, face_of t)) (tris n)) (seq 0 N)).
Proof.
  rewrite linind_value. apply rmap_flat. intros n Hn. apply in_seq in Hn. unfold all_tris. rewrite map_flat_map.
  assert (G : forall l, (forall c, In c l -> In c (grid H W D)) -> rmap (grid_face D H W) (flat_map (fun c => map (fun k => (Z.of_nat (pos4 H W D (cell_at n c)), k)) (ks n c)) l) =
     Ok (flat_map (fun c => map (fun t => (Z.of_nat n, face_of t)) (tris_at D H W vox thresh n (pt_of c))) l)).
  { induction l as [|c l IH]; intros Hl; [reflexivity|]. cbn [flat_map]. rewrite MeshesProofs.rmap_app, IH by (intros; apply Hl; right; assumption).
    unfold tris_at. fold (ks n c). assert (E : rmap (grid_face D H W) (map (fun k => (Z.of_nat (pos4 H W D (cell_at n c)), k)) (ks n c)) = Ok (map (fun t => (Z.of_nat n, face_of t)) (map (tri_at (pt_of c)) (ks n c)))).
    { pose proof (ks_lt n c) as B. revert B. generalize (ks n c) as l'. induction l' as [|k l' IHk]; intros B; [reflexivity|]. cbn [map rmap]. destruct c as ((h, w), d). cbn [cell_at].
      assert (Hc : In (h, w, d) (grid H W D)) by (apply Hl; left; reflexivity). apply grid_in in Hc.
      rewrite grid_face_value; [|apply cells_in; lia|apply B; left; reflexivity]. cbn [rbind]. cbn [cell_at] in IHk. rewrite IHk by (intros; apply B; right; assumption). reflexivity. }
    rewrite E. reflexivity. }
  apply G. auto.
Qed.

(* flags of mesh n *)
Definition used (n i : nat) : Prop := exists t c, In t (tris n) /\ In c (corners t) /\ rav c = Z.of_nat i.
Lemma mesh_made idle_n n place : length idle_n = NV -> Forall (fun v => v <= 1) idle_n -> (forall i, i < NV -> (nth_error idle_n i = Some 0 <-> used n i)) ->
  exists fs, rmap (fun f => let '(i, j, k) := f in x <- py_nth (cumsum idle_n) i ;; y <- py_nth (cumsum idle_n) j ;; z <- py_nth (cumsum idle_n) k ;;
      Ok (i - Z.of_nat x, j - Z.of_nat y, k - Z.of_nat z)%Z) (map face_of (tris n)) = Ok fs /\
    made_of place (tris n) (keep_used (map (fun g => place (pt_of g)) gp) idle_n, fs) /\ closed_oriented fs /\ good_mesh (keep_used (map (fun g => place (pt_of g)) gp) idle_n, fs).
Proof.
  intros L B Hu. set (P := map pt_of (keep_used gp idle_n)).
  assert (HP : NoDup P).
  { unfold P. assert (K : NoDup (keep_used gp idle_n)) by (apply keep_nodup, grid_nodup). revert K. generalize (keep_used gp idle_n) as l. induction l as [|g l IH]; intros K; [constructor|]. inversion K. subst. cbn. constructor; [|apply IH; assumption]. intros Hi. apply in_map_iff in Hi. destruct Hi as (g' & E & Hi). apply pt_of_inj in E. subst. contradiction. }
  assert (Corner : forall t c, In t (tris n) -> In c (corners t) -> exists x, py_nth (cumsum idle_n) (rav c) = Ok x /\ same_corner P (rav c - Z.of_nat x) c).
  { intros t c Ht Hc. destruct (corner_point D H W vox thresh n t c Ht Hc) as (g & Hg & ->). fold gp in Hg. destruct (rav_nth g Hg) as (E & Rg).
    assert (I0 : nth_error idle_n (Z.to_nat (rav (pt_of g))) = Some 0) by (apply Hu; [lia|]; exists t, (pt_of g); repeat split; try assumption; lia).
    destruct (nth_error (cumsum idle_n) (Z.to_nat (rav (pt_of g)))) as [x|] eqn:Ex.
    2:{ apply nth_error_None in Ex. unfold cumsum in Ex. rewrite cumsum_len in Ex. lia. }
    exists x. split; [rewrite <- (Z2Nat.id (rav (pt_of g))) by lia; apply py_at; exact Ex|].
    destruct (keep_index gp idle_n _ g 0 x L B E I0 Ex) as (_ & A2 & A3). rewrite Nat.add_0_r in A2, A3. split; [lia|]. unfold P. rewrite nth_error_map_iff. replace (Z.to_nat (rav (pt_of g) - Z.of_nat x)) with (Z.to_nat (rav (pt_of g)) - x) by lia. rewrite A3. reflexivity. }
  assert (EX : forall l, (forall t, In t l -> In t (tris n)) -> exists fs, rmap (fun f : face => let '(i, j, k) := f in x <- py_nth (cumsum idle_n) i ;; y <- py_nth (cumsum idle_n) j ;; z <- py_nth (cumsum idle_n) k ;;
      Ok (i - Z.of_nat x, j - Z.of_nat y, k - Z.of_nat z)%Z) (map face_of l) = Ok fs /\ Forall2 (same_face P) fs l).
  { induction l as [|t l IH]; intros Hl; [exists []; split; [reflexivity|constructor]|]. destruct IH as (fs & E & HF); [intros; apply Hl; right; assumption|].
    assert (Ht := Hl t (or_introl eq_refl)). destruct t as ((a, b), c).
    destruct (Corner _ a Ht ltac:(cbn; tauto)) as (x & Ex & Sx). destruct (Corner _ b Ht ltac:(cbn; tauto)) as (y & Ey & Sy). destruct (Corner _ c Ht ltac:(cbn; tauto)) as (z & Ez & Sz).
    exists ((rav a - Z.of_nat x, rav b - Z.of_nat y, rav c - Z.of_nat z)%Z :: fs). cbn [map rmap face_of]. rewrite Ex. cbn [rbind]. rewrite Ey. cbn [rbind]. rewrite Ez. cbn [rbind]. rewrite E. split; [reflexivity|]. constructor; [|exact HF]. cbn. auto. }
  destruct (EX (tris n) (fun t Ht => Ht)) as (fs & E & HF). exists fs. split; [exact E|].
  assert (Lk : keep_used (map (fun g => place (pt_of g)) gp) idle_n = map place P) by (unfold P; rewrite keep_map, map_map; reflexivity). rewrite Lk.
  split; [|split].
  - exists P. split; [exact HP|]. split; [|split; [reflexivity|exact HF]]. intros c. unfold P. rewrite in_map_iff. split.
    + intros (g & <- & Hg). apply (keep_in gp idle_n g L) in Hg. destruct Hg as (i & Eg & E0). assert (Hi : i < NV) by (unfold NV; apply nth_error_Some; congruence). apply (Hu i Hi) in E0. destruct E0 as (t & c & Ht & Hc & Er). exists t. split; [exact Ht|].
      destruct (corner_point D H W vox thresh n t c Ht Hc) as (g' & Hg' & ->). destruct (rav_nth g' Hg') as (E' & _). rewrite Er, Nat2Z.id in E'. assert (g' = g) by congruence. subst g'. exact Hc.
    + intros (t & Ht & Hc). destruct (corner_point D H W vox thresh n t c Ht Hc) as (g & Hg & ->). exists g. split; [reflexivity|]. destruct (rav_nth g Hg) as (E' & Rg). apply (keep_in gp idle_n g L). exists (Z.to_nat (rav (pt_of g))). split; [exact E'|]. apply Hu; [lia|]. exists t, (pt_of g). repeat split; try assumption; lia.
  - apply (closed_transfer P fs (tris n) HP HF). apply tris_closed.
  - unfold good_mesh. cbn [fst snd]. rewrite map_length. clear - HF. induction HF as [|((i, j), k) ((a, b), c) fs T ((A1 & A2) & (B1 & B2) & (C1 & C2)) _ IH]; constructor; [|exact IH].
    assert (Z.to_nat i < length P) by (apply nth_error_Some; congruence). assert (Z.to_nat j < length P) by (apply nth_error_Some; congruence). assert (Z.to_nat k < length P) by (apply nth_error_Some; congruence). unfold in_range. lia.
Qed.
Definition place_of (a : align_mode) : pt -> vec3 := match a with TopLeft => place_topleft W H D | Center => place_center W H D | Corner => place_corner W H D end.
Lemma verts_place a : 2 <= W -> 2 <= H -> 2 <= D -> grid_verts D H W a = map (fun g => place_of a (pt_of g)) gp.
Proof.
  intros HW HH HD. unfold grid_verts. apply map_ext. intros ((h, w), d). unfold axis_pos, place_of, pt_of.
  assert (2 <= INR W /\ 2 <= INR H /\ 2 <= INR D)%R as (A1 & A2 & A3) by (change 2%R with (INR 2); repeat split; apply le_INR; assumption).
  destruct a; unfold place_topleft, place_center, place_corner, location; rewrite <- !INR_IZR_INZ; f_equal; field; lra.
Qed.
Lemma rmap_flat_any {X A B} (f : A -> result B) (g : X -> list A) (h : X -> list B) ns : (forall n, In n ns -> rmap f (g n) = Ok (h n)) -> rmap f (flat_map g ns) = Ok (flat_map h ns).
Proof.
  induction ns as [|n ns IH]; intros Hg; [reflexivity|]. cbn [flat_map]. rewrite MeshesProofs.rmap_app, Hg by (left; reflexivity). cbn [rbind]. rewrite IH; [reflexivity|]. intros k Hk. apply Hg. right. exact Hk.
Qed.
Lemma fst_combine {A B} (x : list A) (y : list B) : length x = length y -> map fst (combine x y) = x.
Proof. revert y. induction x as [|a x IH]; intros [|b y] E; try discriminate; [reflexivity|]. cbn. f_equal. apply IH. cbn in E. lia. Qed.
Lemma snd_combine {A B} (x : list A) (y : list B) : length x = length y -> map snd (combine x y) = y.
Proof. revert y. induction x as [|a x IH]; intros [|b y] E; try discriminate; [reflexivity|]. cbn. f_equal. apply IH. cbn in E. lia. Qed.
Lemma flat_nil {A B} (f : A -> list B) l : flat_map f l = [] -> forall x, In x l -> f x = [].
Proof. induction l as [|x l IH]; intros E y Hy; [contradiction|]. cbn in E. apply app_eq_nil in E. destruct E as (E1 & E2). destruct Hy as [<-|Hy]; auto. Qed.
Definition feats_of {F} (f : nat -> nat -> nat -> nat -> F) (n : nat) : list F :=
  flat_map (fun vs => [value_at (f n) (fst vs); value_at (f n) (fst vs)]) (all_sides D H W vox thresh n).
Lemma feats_ks {F} (f : nat -> nat -> nat -> nat -> F) n : feats_of f n = flat_map (fun c => map (fun _ => let '(h, w, d) := c in f n d h w) (ks n c)) (grid H W D).
Proof.
  unfold feats_of, all_sides. rewrite flat_map_flat. apply fm_ext. intros ((h, w), d) _. rewrite flat_map_map. unfold ks. cbn [fst value_at pt_of]. rewrite !Nat2Z.id. cbn [seq filter side_of_face Nat.div2].
  destruct (expn n _ 0), (expn n _ 1), (expn n _ 2), (expn n _ 3), (expn n _ 4), (expn n _ 5); reflexivity.
Qed.
Lemma flat_len {A B} (f : A -> list B) {C} (g : A -> list C) l : (forall x, length (f x) = length (g x)) -> length (flat_map f l) = length (flat_map g l).
Proof. intros E. induction l as [|x l IH]; [reflexivity|]. cbn. rewrite !app_length, E, IH. reflexivity. Qed.
Lemma feats_length {F} (f : nat -> nat -> nat -> nat -> F) n : length (feats_of f n) = length (tris n).
Proof. rewrite feats_ks. unfold all_tris. apply flat_len. intros ((h, w), d). unfold tris_at. rewrite !map_length. reflexivity. Qed.
Lemma feats_select {F} (f : nat -> nat -> nat -> nat -> F) :
  rmap (fun l => py_nth (map (fun c => let '(n, h, w, d) := c in f n d h w) (cells N H W D)) (fst l)) (linind N D H W vox thresh) = Ok (flat_map (feats_of f) (seq 0 N)).
Proof.
  rewrite linind_value. apply rmap_flat. intros n Hn. apply in_seq in Hn. rewrite feats_ks. apply rmap_flat_any. intros ((h, w), d) Hc. apply grid_in in Hc. cbn [cell_at].
  assert (E : py_nth (map (fun c => let '(n, h, w, d) := c in f n d h w) (cells N H W D)) (Z.of_nat (pos4 H W D (n, h, w, d))) = Ok (f n d h w)).
  { apply py_at. rewrite nth_error_map_iff. assert (Hi : In (n, h, w, d) (cells N H W D)) by (apply cells_in; lia). apply In_nth_error in Hi. destruct Hi as (k & Hk).
    assert (Hlt : k < N * (H * W * D)) by (rewrite <- (seq_length (N * (H * W * D)) 0), <- cells_pos, map_length; apply nth_error_Some; congruence).
    assert (E : nth_error (map (pos4 H W D) (cells N H W D)) k = Some (pos4 H W D (n, h, w, d))) by (rewrite nth_error_map_iff, Hk; reflexivity).
    rewrite cells_pos, nth_error_seq_lt in E by exact Hlt. apply (f_equal (fun o => match o with Some x => x | None => 0 end)) in E. cbn beta iota in E. change (0 + k) with k in E. rewrite <- E. rewrite Hk. reflexivity. }
  generalize (ks n (h, w, d)) as l. induction l as [|k l IH]; [reflexivity|]. cbn [map rmap fst]. rewrite E. cbn [rbind]. rewrite IH. reflexivity.
Qed.

Theorem cubify_ok {F} a (feats : option (nat -> nat -> nat -> nat -> F)) : 0 < N -> 2 <= W -> 2 <= H -> 2 <= D ->
  exists m tex b, cubify N D H W vox thresh a feats = Ok (m, tex) /\ new_list (map fst b) (map snd b) = Ok m /\ length b = N /\ Forall good_mesh b /\
    (forall n p, nth_error b n = Some p -> made_of (place_of a) (tris n) p /\ closed_oriented (snd p)) /\
    match feats, a with
    | Some f, Center => has_a_face b -> tex = Some (map (feats_of f) (seq 0 N))
    | _, _ => tex = None
    end.
Proof.
  intros HN HW HH HD. assert (EC : cubify N D H W vox thresh a feats = cubify_grid N D H W vox thresh a feats).
  { unfold cubify. destruct N; [lia|]. replace (W <? 2) with false by (symmetry; apply Nat.ltb_ge; lia). replace (H <? 2) with false by (symmetry; apply Nat.ltb_ge; lia). replace (D <? 2) with false by (symmetry; apply Nat.ltb_ge; lia). reflexivity. }
  rewrite EC. unfold cubify_grid. rewrite nf_value. cbn [rbind]. rewrite (verts_place a HW HH HD). set (verts := map (fun g => place_of a (pt_of g)) gp).
  assert (LV : length verts = NV) by (unfold verts; rewrite map_length; reflexivity). rewrite LV.
  set (nf := flat_map (fun n => map (fun t => (Z.of_nat n, face_of t)) (tris n)) (seq 0 N)).
  destruct nf as [|f0 nf0] eqn:Enf.
  - set (b := repeat (@nil vec3, @nil face) N). assert (Fb : map fst b = repeat [] N /\ map snd b = repeat [] N) by (unfold b; split; rewrite PointcloudsProofs2.map_rep; reflexivity). destruct Fb as (F1 & F2).
    assert (Gb : Forall good_mesh b) by (apply Forall_forall; intros p Hp; apply repeat_spec in Hp; subst p; constructor).
    destruct (new_fresh MeshesProofs11.some_argsort b Gb) as (m & Em & _). exists m, None, b. rewrite <- F1, <- F2 at 1. rewrite Em. cbn [rbind]. split; [reflexivity|]. split; [reflexivity|]. split; [unfold b; apply repeat_length|]. split; [exact Gb|]. split.
    + intros n p Hp. assert (Hn : n < N) by (rewrite <- (repeat_length (@nil vec3, @nil face) N); apply nth_error_Some; fold b; congruence). apply nth_error_In, repeat_spec in Hp. subst p.
      pose proof (flat_nil _ _ Enf n ltac:(apply in_seq; lia)) as Et. cbn beta in Et. apply map_eq_nil in Et. rewrite Et. split; [|intros u v; reflexivity]. exists []. split; [constructor|]. split; [|split; [reflexivity|constructor]]. intros c. split; [intros []|intros (t & [] & _)].
    + destruct feats, a; try reflexivity. intros (p & Hp & Hs). apply repeat_spec in Hp. subst p. contradiction.
  - rewrite <- Enf. clear f0 nf0 Enf. fold nf.
    set (indices := flat_map (fun f : face => let '(i, j, k) := f in [i; j; k]) (map (fun p : Z * face => shift_face (fst p * Z.of_nat NV) (snd p)) nf)).
    assert (Ind : forall z, In z indices <-> exists n t c, n < N /\ In t (tris n) /\ In c (corners t) /\ z = (rav c + Z.of_nat n * Z.of_nat NV)%Z).
    { intros z. unfold indices, nf. rewrite in_flat_map. split.
      - intros (f & Hf & Hz). apply in_map_iff in Hf. destruct Hf as (p & <- & Hp). apply in_flat_map in Hp. destruct Hp as (n & Hn & Hp). apply in_map_iff in Hp. destruct Hp as (t & <- & Ht). apply in_seq in Hn. cbn [fst snd] in Hz. destruct t as ((x, y), w). cbn in Hz. exists n, (x, y, w).
        destruct Hz as [<-|[<-|[<-|[]]]]; eexists; (split; [lia|]); (split; [exact Ht|]); (split; [|reflexivity]); cbn; tauto.
      - intros (n & t & c & Hn & Ht & Hc & ->). exists (shift_face (Z.of_nat n * Z.of_nat NV) (face_of t)). split.
        + apply in_map_iff. exists (Z.of_nat n, face_of t). split; [reflexivity|]. apply in_flat_map. exists n. split; [apply in_seq; lia|]. apply in_map_iff. exists t. split; [reflexivity|exact Ht].
        + destruct t as ((x, y), w). cbn in Hc |- *. destruct Hc as [<-|[<-|[<-|[]]]]; tauto. }
    assert (Rv : forall n t c, In t (tris n) -> In c (corners t) -> (0 <= rav c < Z.of_nat NV)%Z) by (intros n t c Ht Hc; destruct (corner_point D H W vox thresh n t c Ht Hc) as (g & Hg & ->); apply (rav_nth g Hg)).
    destruct (scatter_ok indices (repeat 1 (NV * N))) as (idle & Es & Li & A1 & A2).
    { intros i Hi. rewrite repeat_length. apply Ind in Hi. destruct Hi as (n & t & c & Hn & Ht & Hc & ->). specialize (Rv n t c Ht Hc). nia. }
    match goal with |- context [scatter_zero _ ?x] => change x with indices end. rewrite Es. cbn [rbind]. rewrite repeat_length in Li.
    replace (map fst nf) with (concat (map (fun n => repeat (Z.of_nat n) (length (tris n))) (seq 0 N))).
    2:{ unfold nf. rewrite map_flat_map, flat_map_concat_map. f_equal. apply map_ext. intros n. rewrite map_map. cbn [fst]. generalize (tris n) as l. induction l as [|t l IH]; [reflexivity|]. cbn. f_equal. exact IH. }
    rewrite (bincount_groups _ (fun n => length (tris n))) by reflexivity. cbn [rbind].
    replace (map snd nf) with (concat (map (fun n => map face_of (tris n)) (seq 0 N))).
    2:{ unfold nf. rewrite map_flat_map, flat_map_concat_map. f_equal. apply map_ext. intros n. rewrite map_map. reflexivity. }
    assert (EP : packed_to_list (concat (map (fun n => map face_of (tris n)) (seq 0 N))) (map (fun n => length (tris n)) (seq 0 N)) = Ok (map (fun n => map face_of (tris n)) (seq 0 N))).
    { rewrite <- packed_to_list_inverse. f_equal. rewrite map_map. apply map_ext. intros n. symmetry. apply map_length. }
    rewrite EP. cbn [rbind].
    set (idle_n := fun n => firstn NV (skipn (n * NV) idle)).
    assert (Hrow : forall n, n < N -> length (idle_n n) = NV /\ Forall (fun v => v <= 1) (idle_n n) /\ (forall i, i < NV -> (nth_error (idle_n n) i = Some 0 <-> used n i))).
    { intros n Hn. assert (E : forall i, i < NV -> nth_error (idle_n n) i = nth_error idle (n * NV + i)) by (intros i Hi; unfold idle_n; rewrite nth_error_firstn, skipn_nth; replace (i <? NV) with true by (symmetry; apply Nat.ltb_lt; exact Hi); reflexivity).
      assert (Ln : length (idle_n n) = NV) by (unfold idle_n; rewrite firstn_length, skipn_length, Li; nia).
      assert (U : forall i, i < NV -> (In (Z.of_nat (n * NV + i)) indices <-> used n i)).
      { intros i Hi. rewrite Ind. split.
        - intros (n' & t & c & Hn' & Ht & Hc & Ez). specialize (Rv n' t c Ht Hc). assert (n' = n) by nia. subst n'. exists t, c. repeat split; try assumption. nia.
        - intros (t & c & Ht & Hc & Er). exists n, t, c. repeat split; try assumption. lia. }
      assert (V : forall i, i < NV -> ~ used n i -> nth_error (idle_n n) i = Some 1) by (intros i Hi Hu; rewrite E by exact Hi; rewrite A2 by (rewrite U by exact Hi; exact Hu); apply nth_error_repeat_lt; nia).
      assert (V0 : forall i, i < NV -> used n i -> nth_error (idle_n n) i = Some 0) by (intros i Hi Hu; rewrite E by exact Hi; apply A1; rewrite U by exact Hi; exact Hu).
      assert (Dc : forall i, i < NV -> used n i \/ ~ used n i) by (intros i Hi; rewrite <- U by exact Hi; destruct (in_dec Z.eq_dec (Z.of_nat (n * NV + i)) indices); auto).
      split; [exact Ln|]. split.
      - apply Forall_forall. intros v Hv. apply In_nth_error in Hv. destruct Hv as (i & Hi). assert (Hi' : i < NV) by (rewrite <- Ln; apply nth_error_Some; congruence). destruct (Dc i Hi') as [Y|Y]; [rewrite V0 in Hi by assumption|rewrite V in Hi by assumption]; injection Hi as <-; lia.
      - intros i Hi. split; [|apply V0; exact Hi]. intros E0. destruct (Dc i Hi) as [Y|Y]; [exact Y|]. rewrite V in E0 by assumption. discriminate. }
    assert (Rows : rows_of N NV idle = map idle_n (seq 0 N)).
    { apply nth_error_ext_len; [rewrite rows_of_len, map_length, seq_length; reflexivity|]. intros n Hn. rewrite rows_of_len in Hn. rewrite rows_of_nth by exact Hn. rewrite nth_error_map_iff, nth_error_seq_lt by exact Hn. reflexivity. }
    rewrite Rows.
    assert (PT : exists tex, match feats, a with
             | Some f, Center =>
                 sel <- rmap (fun l => py_nth (map (fun c => let '(n, h, w, d) := c in f n d h w) (cells N H W D)) (fst l)) (linind N D H W vox thresh) ;;
                 r <- packed_to_list sel (map (fun n => length (tris n)) (seq 0 N)) ;; Ok (Some r)
             | _, _ => Ok None end = Ok tex /\ match feats, a with Some f, Center => tex = Some (map (feats_of f) (seq 0 N)) | _, _ => tex = None end).
    { destruct feats as [f|]; [|exists None; split; reflexivity]. destruct a; try (exists None; split; reflexivity). rewrite feats_select. cbn [rbind]. exists (Some (map (feats_of f) (seq 0 N))). split; [|reflexivity].
      rewrite flat_map_concat_map. replace (map (fun n => length (tris n)) (seq 0 N)) with (map (@length F) (map (feats_of f) (seq 0 N))) by (rewrite map_map; apply map_ext; intros n; apply feats_length). rewrite packed_to_list_inverse. reflexivity. }
    destruct PT as (tex & Et & Htex). rewrite Et. cbn [rbind]. rewrite !map_map.
    set (P := fun (n : nat) (fs : list face) => made_of (place_of a) (tris n) (keep_used verts (idle_n n), fs) /\ closed_oriented fs /\ good_mesh (keep_used verts (idle_n n), fs)).
    match goal with |- context [rmap ?f (seq 0 N)] => destruct (rmap_exists f (fun fs n => P n fs) (seq 0 N)) as (FL & EF & HF) end.
    { intros n Hn. apply in_seq in Hn. unfold rget. rewrite !nth_error_map_iff, nth_error_seq_lt by lia. cbn [option_map rbind Nat.add]. destruct (Hrow n ltac:(lia)) as (R1 & R2 & R3).
      destruct (mesh_made (idle_n n) n (place_of a) R1 R2 R3) as (fs & E & M). exists fs. split; [exact E|exact M]. }
    rewrite EF. cbn [rbind]. pose proof (f2_length _ _ _ HF) as LF. rewrite seq_length in LF.
    set (b := combine (map (fun x => keep_used verts (idle_n x)) (seq 0 N)) FL).
    assert (Lb : length b = N) by (unfold b; rewrite combine_length, map_length, seq_length, LF; lia).
    assert (F1 : map fst b = map (fun x => keep_used verts (idle_n x)) (seq 0 N)) by (unfold b; apply fst_combine; rewrite map_length, seq_length; lia).
    assert (F2 : map snd b = FL) by (unfold b; apply snd_combine; rewrite map_length, seq_length; lia).
    assert (Nb : forall n p, nth_error b n = Some p -> n < N /\ fst p = keep_used verts (idle_n n) /\ P n (snd p)).
    { intros n p Hp. assert (Hn : n < N) by (rewrite <- Lb; apply nth_error_Some; congruence). split; [exact Hn|].
      assert (E1 : nth_error (map fst b) n = Some (fst p)) by (rewrite nth_error_map_iff, Hp; reflexivity). rewrite F1, nth_error_map_iff, nth_error_seq_lt in E1 by exact Hn. cbn in E1. split; [congruence|].
      assert (E2 : nth_error (map snd b) n = Some (snd p)) by (rewrite nth_error_map_iff, Hp; reflexivity). rewrite F2 in E2. destruct (SubdivideProofs5.f2_at _ _ _ _ _ HF E2) as (n' & E3 & HP). rewrite nth_error_seq_lt in E3 by exact Hn. injection E3 as <-. exact HP. }
    assert (Gb : Forall good_mesh b).
    { apply Forall_forall. intros p Hp. apply In_nth_error in Hp. destruct Hp as (n & Hp). destruct (Nb n p Hp) as (_ & E & HP). destruct p as (vs, fs). cbn in E. subst vs. apply HP. }
    destruct (new_fresh MeshesProofs11.some_argsort b Gb) as (m & Em & _). assert (Em' : new_list (map (fun x : nat => keep_used verts (idle_n x)) (seq 0 N)) FL = Ok m) by (rewrite <- F1, <- F2; exact Em). rewrite Em'. cbn [rbind]. exists m, tex, b. split; [reflexivity|]. split; [exact Em|]. split; [exact Lb|]. split; [exact Gb|]. split.
    + intros n p Hp. destruct (Nb n p Hp) as (_ & E & HP). destruct p as (vs, fs). cbn in E. subst vs. split; apply HP.
    + destruct feats; [destruct a; auto|exact Htex].
Qed.
End Cubify.
