From Coq Require Import Lra.
From Verif Require Import Base RBase Geom Textures TexturesProofs VertAlign VertAlignSpec VertAlignProofs.
Local Open Scope nat_scope.

Lemma combine_same {A C D} (f : A -> C) (g : A -> D) l : combine (map f l) (map g l) = map (fun a => (f a, g a)) l.
Proof. induction l as [|a l IH]; [reflexivity|]. cbn. now rewrite IH. Qed.
Lemma number_combine {A} (l : list A) : forall k, number_from k l = combine (seq k (length l)) l.
Proof. induction l as [|a l IH]; intros k; [reflexivity|]. cbn. now rewrite IH. Qed.
Lemma number_in {A} (l : list A) : forall k i a, In (i, a) (number_from k l) -> k <= i /\ nth_error l (i - k) = Some a.
Proof.
  induction l as [|b l IH]; intros k i a I; [easy|]. destruct I as [I|I].
  - injection I as -> ->. split; [lia|]. now rewrite Nat.sub_diag.
  - destruct (IH _ _ _ I) as (L & N). split; [lia|]. replace (i - k) with (S (i - S k)) by lia. exact N.
Qed.
Lemma number_length {A} (l : list A) : forall k, length (number_from k l) = length l.
Proof. induction l as [|a l IH]; intros k; cbn; [reflexivity|]. now rewrite IH. Qed.
Lemma number_nth {A} (l : list A) : forall k i a, nth_error l i = Some a -> nth_error (number_from k l) i = Some (k + i, a).
Proof.
  induction l as [|b l IH]; intros k [|i] a H; try discriminate; cbn in *.
  - injection H as ->. now rewrite Nat.add_0_r.
  - rewrite (IH (S k) i a H). do 2 f_equal. lia.
Qed.

Section S.
Variables (align : bool) (mode : pad_mode) (im : interp_mode).
Definition rows_of (feats : list feature) (grid : list (list vec3)) : list (list (list R)) :=
  map (fun p => map (features_at align mode im feats (fst p)) (snd p)) (number_from 0 grid).
Lemma sampled_rows grid : forall k images pre, length images = length grid -> length pre = k ->
  sampled_of align mode im grid images =
  map (fun p => map (fun v => map (fun m => grid_sample align mode im m (x3 v) (y3 v)) (nth (fst p) (pre ++ images) [])) (snd p)) (number_from k grid).
Proof.
  induction grid as [|g grid IH]; intros k images pre L K; [reflexivity|]. destruct images as [|im1 images]; [discriminate|].
  unfold sampled_of. cbn [combine map number_from fst snd]. f_equal.
  - rewrite app_nth2 by lia. replace (k - length pre) with 0 by lia. reflexivity.
  - fold (sampled_of align mode im grid images). rewrite (IH (S k) images (pre ++ [im1])); [|now injection L|rewrite app_length; cbn; lia]. now rewrite <- app_assoc.
Qed.
Lemma cat_step fs c images grid : length images = length grid ->
  cat_features (rows_of fs grid) (sampled_of align mode im grid images) = rows_of (fs ++ [Maps c images]) grid.
Proof.
  intros L. rewrite (sampled_rows grid 0 images [] L eq_refl). unfold cat_features, rows_of. rewrite combine_same, map_map. apply map_ext. intros p. cbn [fst snd app].
  rewrite combine_same, map_map. apply map_ext. intros v. cbn [fst snd]. unfold features_at, channels_of. rewrite flat_map_app, map_app. cbn. now rewrite app_nil_r.
Qed.
Lemma cat_fold grid feats : forall fs, (forall f, In f feats -> exists c images, f = Maps c images /\ length images = length grid) ->
  fold_left cat_features (map (fun f => sampled_of align mode im grid (match f with Maps _ images => images | BadRank => [] end)) feats) (rows_of fs grid) = rows_of (fs ++ feats) grid.
Proof.
  induction feats as [|f feats IH]; intros fs H; cbn [map fold_left]; [now rewrite app_nil_r|].
  destruct (H f (or_introl eq_refl)) as (c & images & -> & L). rewrite (cat_step fs c images grid L), IH by (intros g I; apply H; right; exact I). now rewrite <- app_assoc.
Qed.
Lemma first_rows c images grid : length images = length grid -> sampled_of align mode im grid images = rows_of [Maps c images] grid.
Proof.
  intros L. rewrite (sampled_rows grid 0 images [] L eq_refl). unfold rows_of. apply map_ext. intros p. apply map_ext. intros v. unfold features_at, channels_of. cbn. now rewrite app_nil_r.
Qed.
Lemma cat_ok grid feats : fitting (length grid) feats ->
  cat_all (map (fun f => sampled_of align mode im grid (match f with Maps _ images => images | BadRank => [] end)) feats) = Ok (rows_of feats grid).
Proof.
  intros (NE & H). destruct feats as [|f feats]; [contradiction|]. cbn [map cat_all]. destruct (H f (or_introl eq_refl)) as (c & images & -> & L & _).
  rewrite (first_rows c images grid L), cat_fold; [reflexivity|]. intros g I. destruct (H g (or_intror I)) as (c' & images' & -> & L' & _). now exists c', images'.
Qed.

Lemma channels_positive feats n : fitting n feats ->
  (fold_right Nat.add 0 (map fst (map (fun f => match f with Maps c images => (c, images) | BadRank => (0, []) end) feats)) =? 0) = false.
Proof.
  intros (NE & H). apply Nat.eqb_neq. destruct feats as [|f feats]; [contradiction|]. destruct (H f (or_introl eq_refl)) as (c & images & -> & _ & P & _). cbn. lia.
Qed.
Lemma align_padded feats verts grid : grid_of verts = Ok grid -> fitting (length grid) feats ->
  vert_align feats verts false im mode align = Ok (Padded (rows_of feats grid)).
Proof.
  intros G F. unfold vert_align. rewrite G. cbn [rbind]. rewrite (checks_ok _ _ F). cbn [rbind]. rewrite (samples_ok align mode im _ _ F). cbn [rbind]. rewrite (cat_ok _ _ F). reflexivity.
Qed.
Lemma align_tensor feats rows : fitting (length rows) feats ->
  vert_align feats (Tensor3 rows) true im mode align = Ok (Packed (concat (rows_of feats rows))).
Proof.
  intros F. unfold vert_align. cbn [grid_of rbind]. rewrite (checks_ok _ _ F). cbn [rbind]. rewrite (samples_ok align mode im _ _ F). cbn [rbind]. rewrite (cat_ok _ _ F). cbn [rbind].
  rewrite (channels_positive _ _ F). reflexivity.
Qed.
Lemma align_clouds feats l : fitting (length l) feats ->
  vert_align feats (OfClouds l) true im mode align = Ok (Packed (concat (rows_of feats (padded l)))).
Proof.
  intros F. assert (F' : fitting (length (padded l)) feats) by (unfold padded; rewrite map_length; exact F).
  unfold vert_align. cbn [grid_of rbind]. rewrite (checks_ok _ _ F'). cbn [rbind]. rewrite (samples_ok align mode im _ _ F'). cbn [rbind]. rewrite (cat_ok _ _ F'). cbn [rbind].
  rewrite (channels_positive _ _ F'). reflexivity.
Qed.
Lemma nth_concat {A} (x : list (list A)) V : (forall r, In r x -> length r = V) -> forall i j r, nth_error x i = Some r -> j < V -> nth_error (concat x) (j + i * V) = nth_error r j.
Proof.
  induction x as [|a x IH]; intros H i j r N J; [destruct i; discriminate|]. cbn [concat]. destruct i as [|i]; cbn in N.
  - injection N as ->. rewrite nth_error_app1 by (rewrite (H r (or_introl eq_refl)); lia). f_equal. lia.
  - rewrite nth_error_app2 by (rewrite (H a (or_introl eq_refl)); lia). rewrite (H a (or_introl eq_refl)). rewrite <- (IH (fun r I => H r (or_intror I)) i j r N J). f_equal. lia.
Qed.
Lemma longest_ge l a : In a l -> length a <= longest l.
Proof. intros I. apply max_nat_ge. apply in_map. exact I. Qed.
Lemma pad_length n l : length l <= n -> length (pad_to n l) = n.
Proof. intros H. unfold pad_to. rewrite app_length, repeat_length. lia. Qed.
Lemma map_seq_nth {A B} (f : A -> B) d l : map (fun j => f (nth j l d)) (seq 0 (length l)) = map f l.
Proof.
  induction l as [|a l IH]; [reflexivity|]. cbn [length seq map nth]. f_equal. rewrite <- seq_shift, map_map. exact IH.
Qed.
Lemma rmap_pure {A B} (f : A -> result B) (g : A -> B) l : (forall a, In a l -> f a = Ok (g a)) -> rmap f l = Ok (map g l).
Proof. induction l as [|a l IH]; intros H; [reflexivity|]. cbn [rmap map]. rewrite (H a (or_introl eq_refl)), IH by (intros b I; apply H; right; exact I). reflexivity. Qed.
Lemma align_meshes feats l : l <> [] -> fitting (length l) feats ->
  vert_align feats (OfMeshes l) true im mode align = Ok (Packed (concat (rows_of feats l))).
Proof.
  intros NE F. assert (F' : fitting (length (padded l)) feats) by (unfold padded; rewrite map_length; exact F).
  unfold vert_align. cbn [grid_of rbind]. rewrite (checks_ok _ _ F'). cbn [rbind]. rewrite (samples_ok align mode im _ _ F'). cbn [rbind]. rewrite (cat_ok _ _ F'). cbn [rbind].
  rewrite (channels_positive _ _ F'). unfold padded_to_packed_idx. destruct l as [|a0 l0] eqn:EL; [contradiction|]. rewrite <- EL in *. clear EL a0 l0 NE. cbn [rbind].
  set (X := concat (rows_of feats (padded l))).
  assert (K : forall i vs j v, nth_error l i = Some vs -> nth_error vs j = Some v -> nth_error X (j + i * longest l) = Some (features_at align mode im feats i v)).
  { intros i vs j v NI NJ. assert (LJ : j < length vs) by (apply nth_error_Some; rewrite NJ; discriminate). pose proof (longest_ge l vs (nth_error_In _ _ NI)) as LV.
    unfold X. rewrite (nth_concat _ (longest l)) with (r := map (features_at align mode im feats i) (pad_to (longest l) vs)).
    - rewrite nth_error_map. unfold pad_to. rewrite nth_error_app1 by exact LJ. rewrite NJ. reflexivity.
    - intros r I. unfold rows_of in I. apply in_map_iff in I. destruct I as ([p q] & <- & I). cbn [fst snd]. rewrite map_length. destruct (number_in _ _ _ _ I) as (_ & N). apply nth_error_In in N. unfold padded in N. apply in_map_iff in N. destruct N as (u & <- & IU). apply pad_length, longest_ge, IU.
    - unfold rows_of. rewrite nth_error_map. rewrite (number_nth _ 0 i (pad_to (longest l) vs)); [reflexivity|]. unfold padded. rewrite nth_error_map, NI. reflexivity.
    - lia. }
  unfold gather_rows. rewrite (rmap_pure _ (fun i => nth i X [])).
  - cbn [rbind]. do 2 f_equal. rewrite concat_map, map_map. rewrite <- number_combine. unfold rows_of. f_equal. apply map_ext_in. intros [i vs] I. cbn [fst snd].
    destruct (number_in _ _ _ _ I) as (_ & NI). rewrite Nat.sub_0_r in NI. rewrite map_map. rewrite <- (map_seq_nth (features_at align mode im feats i) (V3 0 0 0) vs). apply map_ext_in. intros j IJ. apply in_seq in IJ.
    apply nth_error_nth. apply (K i vs j); [exact NI|]. apply nth_error_nth'. lia.
  - intros q I. apply in_concat in I. destruct I as (b & IB & IQ). apply in_map_iff in IB. destruct IB as ([i vs] & <- & IB). cbn [fst snd] in IQ. apply in_map_iff in IQ. destruct IQ as (j & <- & IJ). apply in_seq in IJ.
    rewrite <- number_combine in IB. destruct (number_in _ _ _ _ IB) as (_ & NI). rewrite Nat.sub_0_r in NI. pose proof (K i vs j (nth j vs (V3 0 0 0)) NI ltac:(apply nth_error_nth'; lia)) as Q.
    rewrite Q. now rewrite (nth_error_nth _ _ _ Q).
Qed.
End S.

Lemma align_refuses feats verts packed im mode align grid f : grid_of verts = Ok grid -> In f feats ->
  match f with BadRank => True | Maps _ images => length images <> length grid end ->
  vert_align feats verts packed im mode align = Fail EValue.
Proof.
  intros G I B. unfold vert_align. rewrite G. cbn [rbind].
  assert (E : rmap (check (length grid)) feats = Fail EValue).
  { induction feats as [|a feats IH]; [easy|]. cbn [rmap]. destruct (check (length grid) a) as [q|e] eqn:C.
    - destruct I as [->|I]; [|rewrite (IH I); reflexivity]. destruct f as [c images|]; [|discriminate C]. cbn in C. destruct (Nat.eqb_spec (length images) (length grid)); [contradiction|discriminate].
    - destruct a as [c images|]; cbn in C; [destruct (length images =? length grid); [discriminate|]|]; injection C as <-; reflexivity. }
  rewrite E. reflexivity.
Qed.
