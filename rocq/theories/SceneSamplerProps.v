(* C50. The batches of SceneBatchSampler, for every outcome of the random choices. *)
From Coq Require Import ZArith Reals String Bool Permutation Sorted Lia Lra.
From Verif Require Import Base RBase Stats SceneSampler SceneSamplerSpec SceneSamplerProofs SceneSamplerProofs2 SceneSamplerProofs3.
Local Open Scope list_scope.

Theorem scene_batch_bounded c D b : well_formed D -> sample_batch c D (Ok b) -> (length (b_frames b) <= Z.to_nat (batch_size c))%nat.
Proof. intros W H. destruct (batch_ok c D b W H) as (n & chosen & runs & _ & _ & _ & _ & -> & _). rewrite firstn_length. lia. Qed.
Print Assumptions scene_batch_bounded.
(* no frame comes twice *)
Theorem scene_batch_no_repeats c D b : well_formed D -> sample_batch c D (Ok b) -> NoDup (b_frames b).
Proof. exact (batch_nodup c D b). Qed.
Print Assumptions scene_batch_no_repeats.
(* the batch is made of contributions of distinct sequences, cut at the batch size; there are just enough sequences *)
Theorem scene_batch_composition c D b : well_formed D -> sample_batch c D (Ok b) -> exists n k chosen runs,
  In n (images_per_seq_options c) /\ (0 < n)%Z /\ rounded_up (batch_size c) n k /\ NoDup chosen /\
  incl chosen (if category_aware c then concat (map snd (category_to_names D)) else seq_names D) /\ (Z.of_nat (length chosen) <= k)%Z /\
  (category_aware c = false -> Z.of_nat (length chosen) = Z.min k (Z.of_nat (length (seq_names D)))) /\
  Forall2 (contribution c D n) chosen runs /\ b_frames b = firstn (Z.to_nat (batch_size c)) (concat runs) /\ (b_floats b = true <-> In [] runs).
Proof.
  intros W H. destruct (batch_ok c D b W H) as (n & chosen & runs & H1 & H2 & H3 & H4 & H5 & H6). apply sequences_ok in H3. destruct H3 as (I & ND & L & K). exists n, (- (- batch_size c / n))%Z, chosen, runs. repeat split; auto; try (apply ceil_ok; exact H2); try (apply H6).
  intros E. rewrite E in K. exact K.
Qed.
Print Assumptions scene_batch_composition.
(* with enough frames and sequences the batch is full *)
Theorem scene_batch_full c D b : well_formed D -> (0 < batch_size c)%Z ->
  (forall n name, In n (images_per_seq_options c) -> In name (known D c) -> offers c D n name) ->
  (forall n k, In n (images_per_seq_options c) -> rounded_up (batch_size c) n k ->
     if category_aware c then List.Forall (fun p => k <= Z.of_nat (length (snd p)))%Z (category_to_names D) else (k <= Z.of_nat (length (seq_names D)))%Z) ->
  sample_batch c D (Ok b) -> Z.of_nat (length (b_frames b)) = batch_size c.
Proof. exact (batch_full c D b). Qed.
Print Assumptions scene_batch_full.
(* no outcome of the random choices raises *)
Theorem scene_batch_never_fails c D e : ready c D -> ~ sample_batch c D (Fail e).
Proof. exact (batch_total c D e). Qed.
Print Assumptions scene_batch_never_fails.

(* the segments: the frames in order, cut where, and only where, a limit is exceeded *)
Theorem segments_split gap gap_s l out : split_to_segments gap gap_s l = Ok out -> exists segs, out = map (map f_idx) segs /\ is_split gap gap_s l segs.
Proof. exact (split_ok gap gap_s l out). Qed.
Print Assumptions segments_split.
Theorem segments_exist gap gap_s l : (0 <= gap)%Z -> (0 < gap)%Z \/ (0 < gap_s)%R -> playable l -> exists out, split_to_segments gap gap_s l = Ok out.
Proof. exact (split_total gap gap_s l). Qed.
Print Assumptions segments_exist.
(* every frame of a segment that is long enough can be drawn *)
Theorem every_frame_can_be_drawn c D n name segs s i : sample_consecutive_frames c = true -> limits_on c -> (0 < n)%Z ->
  split_to_segments (max_gap c) (max_gap_seconds c) (frames_of D name) = Ok segs -> In s segs -> (n <= Z.of_nat (length s))%Z -> In i s ->
  exists r, choose_frames c D n name (Ok r) /\ In i r.
Proof. exact (frame_reachable c D n name segs s i). Qed.
Print Assumptions every_frame_can_be_drawn.

(* a dataset of annotations: each sequence has exactly its own frames, sorted, and the hypothesis above holds *)
Theorem annotated_frames_in_order anns cats name : let l := frames_of (json_dataset anns cats) name in
  StronglySorted before l /\ (forall f, In f l <-> annotated anns name f) /\ NoDup (map f_idx l).
Proof. exact (json_frames anns cats name). Qed.
Print Assumptions annotated_frames_in_order.
Theorem annotated_well_formed anns cats : NoDup (map fst cats) -> well_formed (json_dataset anns cats).
Proof. exact (json_well_formed anns cats). Qed.
Print Assumptions annotated_well_formed.

(* with as many categories as frames, no two sequences of the batch share a category *)
Theorem scene_batch_categories_differ c D b : well_formed D -> category_aware c = true -> (batch_size c <= Z.of_nat (length (category_to_names D)))%Z -> sample_batch c D (Ok b) ->
  forall i j s1 s2 cat names, In i (b_frames b) -> In j (b_frames b) -> In i (indices_of D s1) -> In j (indices_of D s2) -> In (cat, names) (category_to_names D) -> In s1 names -> In s2 names -> s1 = s2.
Proof. exact (batch_categories c D b). Qed.
Print Assumptions scene_batch_categories_differ.
(* a subset filter reports the numbers and times of the frames it keeps (but see filtered_frames_refuted for the indices) *)
Theorem filtered_numbers_and_times anns name fs l : frames_in_order anns name (Some fs) = Ok l ->
  Permutation (map (fun f => (f_no f, f_ts f)) l) (map (fun a => (a_no a, a_ts a)) (filter (fun a => String.eqb (a_seq a) name && kept_by fs a) anns)).
Proof. exact (filtered_numbers anns name fs l). Qed.
Print Assumptions filtered_numbers_and_times.

(* a concrete case *)
Definition ex_anns : list annotation :=
  [{| a_seq := "a"; a_no := 0; a_ts := 0; a_subset := None |}; {| a_seq := "b"; a_no := 0; a_ts := 0; a_subset := None |};
   {| a_seq := "a"; a_no := 1; a_ts := 0; a_subset := None |}; {| a_seq := "a"; a_no := 5; a_ts := 0; a_subset := None |}; {| a_seq := "b"; a_no := 1; a_ts := 0; a_subset := None |}].
Definition ex_data := json_dataset ex_anns [("a"%string, "car"%string); ("b"%string, "dog"%string)].
Definition ex_sampler := {| batch_size := 3; images_per_seq_options := [2%Z]; sample_consecutive_frames := true; max_gap := 1; max_gap_seconds := 0; category_aware := true |}.
Ltac cmp := repeat (first [ match goal with |- context [Rltb ?a ?b] => destruct (Rltb_spec a b); [exfalso; lra|] end | match goal with |- context [Reqb ?a ?b] => destruct (Reqb_spec a b); [|exfalso; lra] end | match goal with |- context [Rleb ?a ?b] => destruct (Rleb_spec a b); [|exfalso; lra] end ]; cbn).
Lemma ex_frames_a : frames_of ex_data "a" = [(0%R, 0%Z, 0%nat); (0%R, 1%Z, 2%nat); (0%R, 5%Z, 3%nat)].
Proof. cbn. unfold stamp_ltb. cbn. repeat (cmp; unfold stamp_ltb; cbn); reflexivity. Qed.
Lemma ex_frames_b : frames_of ex_data "b" = [(0%R, 0%Z, 1%nat); (0%R, 1%Z, 4%nat)].
Proof. cbn. unfold stamp_ltb. cbn. repeat (cmp; unfold stamp_ltb; cbn); reflexivity. Qed.
Example sampler_case : well_formed ex_data /\ ready ex_sampler ex_data /\ split_to_segments 1 0 (frames_of ex_data "a") = Ok [[0%nat; 2%nat]; [3%nat]].
Proof.
  split; [apply json_well_formed; cbn; repeat (constructor; [cbn; intuition discriminate|]); constructor|]. split.
  - unfold ready. cbn [ex_sampler images_per_seq_options batch_size category_aware sample_consecutive_frames max_gap]. split; [repeat constructor; lia|]. split; [discriminate|]. split; [lia|]. split.
    + split; [discriminate|]. cbn. split; [repeat (constructor; [cbn; intuition discriminate|]); constructor|]. repeat constructor; discriminate.
    + intros _ name Hn. cbn in Hn. destruct Hn as [<-|[<-|[]]]; [rewrite ex_frames_a|rewrite ex_frames_b]; (split; [discriminate|]); intros _; (split; [lia|]); split; try (repeat constructor; cbn; try lia; lra); cbn; repeat split; intros _; lia.
  - rewrite ex_frames_a. unfold split_to_segments. cbn. cmp. reflexivity.
Qed.

(* Findings. *)
(* With a subset filter the frames get the indices of other frames, even of frames outside the filter. *)
Theorem filtered_frames_refuted : ~ forall anns name fs l, frames_in_order anns name (Some fs) = Ok l ->
  forall f, In f l -> annotated anns name f /\ exists a s, nth_error anns (f_idx f) = Some a /\ a_subset a = Some s /\ In s fs.
Proof.
  intros H. specialize (H [{| a_seq := "a"; a_no := 0; a_ts := 0; a_subset := Some "val"%string |}; {| a_seq := "a"; a_no := 1; a_ts := 0; a_subset := Some "train"%string |}] "a"%string ["train"%string] _ eq_refl).
  cbn in H. destruct (H _ (or_introl eq_refl)) as (_ & a & s & E & Es & I). cbn in E. injection E as <-. cbn in Es. injection Es as <-. destruct I as [I|[]]. discriminate.
Qed.
Print Assumptions filtered_frames_refuted.
(* A negative gap, which should switch the limit off, makes videos that start at time 0 raise. *)
Theorem negative_gap_refuted : ~ forall gap gap_s l, (0 < gap_s)%R -> playable l -> exists out, split_to_segments gap gap_s l = Ok out.
Proof.
  intros H. destruct (H (-1)%Z 1%R [(0%R, 0%Z, 0%nat)]) as (out & E); [lra|split; [repeat constructor; cbn; try lia; lra|exact I]|]. revert E. unfold split_to_segments. cbn. destruct (Rleb_spec 1 0); [lra|]. cbn. destruct (Rleb_spec 0 0); [discriminate|lra].
Qed.
Print Assumptions negative_gap_refuted.
(* A sequence without frames turns the indices of the whole batch into floating point numbers. *)
Theorem indices_are_integers_refuted : ~ forall c D b, well_formed D -> sample_batch c D (Ok b) -> b_floats b = false.
Proof.
  intros H. set (c := {| batch_size := 2; images_per_seq_options := [1%Z]; sample_consecutive_frames := false; max_gap := 0; max_gap_seconds := 0; category_aware := false |}).
  set (D := {| seq_names := ["a"%string; "b"%string]; frames_of := fun s => if String.eqb s "a" then [(0%R, 0%Z, 0%nat)] else []; category_to_names := [] |}).
  specialize (H c D {| b_frames := [0%nat]; b_floats := true |}). cbn in H. enough (true = false) by discriminate. apply H.
  - split; [repeat (constructor; [cbn; intuition discriminate|]); constructor|]. unfold indices_of. cbn. split; [intros n; destruct (String.eqb n "a"); cbn; repeat constructor; intros []|]. split; [|split; constructor].
    intros n1 n2 i. destruct (String.eqb_spec n1 "a") as [->|]; cbn; [|intros []]. destruct (String.eqb_spec n2 "a") as [->|]; cbn; [reflexivity|intros _ []].
  - unfold sample_batch. rewrite nbind_ok. exists 1%Z. split; [exists 1%Z; split; [left; reflexivity|reflexivity]|]. cbn -[choose_sequences choose_frames nmap]. rewrite nbind_ok. exists ["a"%string; "b"%string]. split.
    + unfold choose_sequences, capped_random_choice, np_choice. cbn. exists [0%nat; 1%nat], ["a"%string; "b"%string]. split; [reflexivity|]. split; [intros _; repeat (constructor; [cbn; intuition discriminate|]); constructor|]. split; [repeat constructor|reflexivity].
    + rewrite nbind_ok. exists [[0%nat]; []]. split; [|reflexivity]. apply nmap_ok. constructor; [|constructor; [|constructor]]; unfold choose_frames, capped_random_choice, np_choice; cbn.
      * exists [0%nat], [0%nat]. split; [reflexivity|]. split; [intros _; constructor; [intros []|constructor]|]. split; [repeat constructor|reflexivity].
      * exists [], []. split; [reflexivity|]. split; [intros _; constructor|]. split; [constructor|reflexivity].
Qed.
Print Assumptions indices_are_integers_refuted.
