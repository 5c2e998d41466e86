(* C87: which frames come in which batch. *)
From Coq Require Import Arith List Permutation Lia Bool.
From Verif Require Import Base Loaders LoadersSpec LoadersProofs LoadersProofs2.
Import ListNotations.

(* a set of three frames, the middle one known, and two training frames *)
Definition three : dataset := Dataset [false; true; false] None.
Definition two : dataset := Dataset [true; true] None.

(* The batches of a double pool: as many as its length, each of the batch size, with a first frame
   of the first pool and the others from different places of the second pool. *)
Theorem pool_batches ch p : fair ch -> first_indices p <> [] -> 1 <= batch_size p <= length (rest_indices p) + 1 ->
  num_batches p <> Some 0 ->
  exists bs, pool_iter ch p = Ok bs /\ length bs = pool_len p /\
    forall b, In b bs -> exists x r, b = x :: r /\ In x (first_indices p) /\ length r = batch_size p - 1 /\
      drawn (rest_indices p) r.
Proof. exact (iter_batches ch p). Qed.
Print Assumptions pool_batches.
Example pool_batches_case : pool_iter steady (Pool [10; 11] [20; 21; 22] 3 false (Some 3)) =
  Ok [[11; 22; 21]; [10; 22; 21]; [11; 22; 21]].
Proof. reflexivity. Qed.

(* Without replacement one epoch has every first frame exactly once. *)
Theorem pool_epoch_visits_all ch p bs : fair ch -> first_indices p <> [] ->
  1 <= batch_size p <= length (rest_indices p) + 1 -> replacement p = false -> num_batches p = None ->
  pool_iter ch p = Ok bs -> Permutation (map (hd 0) bs) (first_indices p).
Proof. intros F N S0 R M. apply (epoch_heads ch p F N S0); [rewrite M; discriminate|exact R|exact M]. Qed.
Print Assumptions pool_epoch_visits_all.
Example pool_epoch_case : pool_iter steady (Pool [10; 11] [20; 21; 22] 2 false None) = Ok [[11; 22]; [10; 22]].
Proof. reflexivity. Qed.

(* Without replacement, m batches use every first frame m/n times, rounded down or one more. *)
Theorem pool_is_balanced ch p m bs x : fair ch -> first_indices p <> [] ->
  1 <= batch_size p <= length (rest_indices p) + 1 -> replacement p = false -> num_batches p = Some m -> 0 < m ->
  NoDup (first_indices p) -> pool_iter ch p = Ok bs -> In x (first_indices p) ->
  m / length (first_indices p) <= count_occ Nat.eq_dec (map (hd 0) bs) x <= m / length (first_indices p) + 1.
Proof.
  intros F N S0 R M P D. apply (balanced_heads ch p F N S0); [|exact R|exact M|exact D].
  rewrite M. intros E. injection E as E. lia.
Qed.
Print Assumptions pool_is_balanced.

(* A pool is refused exactly when its second list cannot fill a batch; an empty first list raises. *)
Theorem pool_refused_iff first rest size repl n : new_pool first rest size repl n = Fail EValue <-> length rest + 1 < size.
Proof. exact (pool_refused first rest size repl n). Qed.
Print Assumptions pool_refused_iff.
Theorem pool_without_first ch p : first_indices p = [] -> (replacement p = true \/ num_batches p <> None) ->
  pool_iter ch p = Fail ERuntime.
Proof. exact (empty_refused ch p). Qed.
Print Assumptions pool_without_first.

(* SAME conditioning, and batches of one frame: with no number of batches, an epoch has
   floor(n / size) full batches and no frame twice. *)
Theorem same_epoch ch size scene d t c : fair ch -> eval_batches d = None -> 0 < size -> 0 < size_of d ->
  (c = Same \/ size = 1) ->
  exists bs, make_loader ch size false scene (Some d) 0 t c = Ok (Some (map (map Own) bs)) /\ length bs = size_of d / size /\
    (forall b, In b bs -> length b = size) /\ NoDup (concat bs) /\ (forall i, In i (concat bs) -> i < size_of d).
Proof.
  intros F E S0 L C. destruct (simple_epoch ch size (size_of d) F S0 L) as (bs & B & R). exists bs. split; [|exact R].
  unfold make_loader. rewrite E. cbn [andb negb].
  replace ((size =? 1) || _) with true by (destruct C as [->| ->]; [rewrite orb_true_r|]; reflexivity).
  rewrite B. reflexivity.
Qed.
Print Assumptions same_epoch.
(* A given number of batches is the number of batches, whatever the length of the dataset. *)
Theorem same_fixed ch size scene d t c n : fair ch -> eval_batches d = None -> 0 < size -> 0 < size_of d -> 0 < n ->
  (c = Same \/ size = 1) ->
  exists bs, make_loader ch size false scene (Some d) n t c = Ok (Some (map (map Own) bs)) /\ length bs = n /\
    (forall b, In b bs -> length b = size) /\ (forall i, In i (concat bs) -> i < size_of d).
Proof.
  intros F E S0 L N C. destruct (simple_fixed ch size (size_of d) n F S0 L N) as (bs & B & R). exists bs. split; [|exact R].
  unfold make_loader. rewrite E. cbn [andb negb].
  replace ((size =? 1) || _) with true by (destruct C as [->| ->]; [rewrite orb_true_r|]; reflexivity).
  rewrite B. reflexivity.
Qed.
Print Assumptions same_fixed.
Example same_case : make_loader steady 2 false (fun _ => Fail EValue) (Some three) 0 None Same = Ok (Some [[Own 2; Own 1]]).
Proof. reflexivity. Qed.

(* TRAIN conditioning: one frame of the dataset, then different frames of the training set. *)
Theorem train_conditioning ch size scene d t n : fair ch -> eval_batches d = None -> 0 < size_of d ->
  1 < size <= size_of t + 1 ->
  exists bs, make_loader ch size false scene (Some d) n (Some t) Train = Ok (Some bs) /\
    length bs = (if n =? 0 then size_of d else n) /\
    forall b, In b bs -> exists i r, b = Own i :: map FromTrain r /\ i < size_of d /\ length r = size - 1 /\ NoDup r /\
      (forall j, In j r -> j < size_of t).
Proof.
  intros F E D S0. destruct (train_runs ch size d t n F D) as (bs & B & R); [lia|]. exists bs. split; [|exact R].
  unfold make_loader. rewrite E. cbn [andb negb]. destruct (Nat.eqb_spec size 1); [lia|]. cbn [orb]. rewrite B. reflexivity.
Qed.
Print Assumptions train_conditioning.
Example train_case : make_loader steady 2 false (fun _ => Fail EValue) (Some three) 0 (Some two) Train =
  Ok (Some [[Own 0; FromTrain 1]; [Own 1; FromTrain 1]; [Own 2; FromTrain 1]]).
Proof. reflexivity. Qed.

(* KNOWN conditioning: one unseen frame, then different known frames. *)
Theorem known_conditioning ch size scene d t n : fair ch -> eval_batches d = None -> In false (known d) ->
  1 < size <= count_occ bool_dec (known d) true + 1 ->
  exists bs, make_loader ch size false scene (Some d) n t Known = Ok (Some bs) /\
    length bs = (if n =? 0 then count_occ bool_dec (known d) false else n) /\
    forall b, In b bs -> exists i r, b = map Own (i :: r) /\ nth_error (known d) i = Some false /\ length r = size - 1 /\
      NoDup (i :: r) /\ (forall j, In j r -> nth_error (known d) j = Some true).
Proof.
  intros F E D S0. rewrite <- !frames_count in *.
  destruct (known_runs ch size d n F) as (bs & B & R); [|lia|].
  { apply In_nth_error in D. destruct D as (i & D). apply frames_in in D. intros Z. rewrite Z in D. exact D. }
  exists bs. split; [|exact R].
  unfold make_loader. rewrite E. cbn [andb negb]. destruct (Nat.eqb_spec size 1); [lia|]. cbn [orb]. rewrite B. reflexivity.
Qed.
Print Assumptions known_conditioning.
Example known_case : make_loader steady 2 false (fun _ => Fail EValue) (Some three) 3 None Known =
  Ok (Some [[Own 0; Own 1]; [Own 2; Own 1]; [Own 0; Own 1]]).
Proof. reflexivity. Qed.

(* Batches for evaluation are given as they are; no dataset gives no loader; scenes and conditioning
   on other frames exclude each other; TRAIN without training frames is refused. *)
Theorem evaluation_batches ch size scenes scene d n t c bs : eval_batches d = Some bs ->
  make_loader ch size scenes scene (Some d) n t c = Ok (Some (map (map Own) bs)).
Proof. intros E. unfold make_loader. rewrite E. reflexivity. Qed.
Print Assumptions evaluation_batches.
Theorem no_dataset ch size scenes scene n t c : make_loader ch size scenes scene None n t c = Ok None.
Proof. reflexivity. Qed.
Print Assumptions no_dataset.
Theorem scenes_need_same ch size scene d n t c : eval_batches d = None -> c <> Same ->
  make_loader ch size true scene (Some d) n t c = Fail EValue.
Proof. intros E C. unfold make_loader. rewrite E. destruct c; [contradiction| |]; reflexivity. Qed.
Print Assumptions scenes_need_same.
Theorem scenes_use_their_sampler ch size scene d n t bs : eval_batches d = None -> size <> 1 ->
  scene (if n =? 0 then size_of d else n) = Ok bs ->
  make_loader ch size true scene (Some d) n t Same = Ok (Some (map (map Own) bs)).
Proof.
  intros E S1 B. unfold make_loader. rewrite E. cbn [andb negb]. destruct (Nat.eqb_spec size 1); [contradiction|].
  cbn [orb]. rewrite B. reflexivity.
Qed.
Print Assumptions scenes_use_their_sampler.
Theorem train_needs_frames ch size scene d n t : eval_batches d = None -> 1 < size ->
  match t with None => True | Some t => size_of t + 1 < size end ->
  make_loader ch size false scene (Some d) n t Train = Fail EValue.
Proof.
  intros E S1 T. unfold make_loader. rewrite E. cbn [andb negb]. destruct (Nat.eqb_spec size 1); [lia|]. cbn [orb].
  destruct t as [t|]; [|reflexivity]. unfold train_loader.
  rewrite (proj2 (pool_refused _ _ _ _ _)) by (rewrite seq_length; exact T). reflexivity.
Qed.
Print Assumptions train_needs_frames.

(* Not so: an epoch of KNOWN conditioning visits every unseen frame.  First frames are drawn with
   replacement, so that an evaluation may see one frame twice and another never. *)
Theorem known_epoch_visits_all_refuted :
  ~ (forall ch scene d t bs i, fair ch -> eval_batches d = None ->
       make_loader ch 2 false scene (Some d) 0 t Known = Ok (Some bs) ->
       nth_error (known d) i = Some false -> exists b, In b bs /\ hd_error b = Some (Own i)).
Proof.
  intros H. specialize (H (Chance (fun _ n => seq 0 n) (fun _ _ _ => 0)) (fun _ => Fail EValue) three None
    [[Own 0; Own 1]; [Own 0; Own 1]] 2).
  destruct H as (b & [<-|[<-|[]]] & E); try reflexivity; try discriminate E.
  split; cbn; intros; [apply Permutation_refl|assumption].
Qed.
Print Assumptions known_epoch_visits_all_refuted.
(* Not so: TRAIN conditioning of the training set never conditions a frame on itself. *)
Theorem train_never_conditions_on_itself_refuted :
  ~ (forall ch scene d bs b i r, fair ch -> eval_batches d = None ->
       make_loader ch 2 false scene (Some d) 0 (Some d) Train = Ok (Some bs) -> In b bs ->
       b = Own i :: map FromTrain r -> ~ In i r).
Proof.
  intros H. apply (H (Chance (fun _ n => seq 0 n) (fun _ _ _ => 0)) (fun _ => Fail EValue) two
    [[Own 0; FromTrain 0]; [Own 0; FromTrain 0]] [Own 0; FromTrain 0] 0 [0]); try reflexivity.
  - split; cbn; intros; [apply Permutation_refl|assumption].
  - left. reflexivity.
  - left. reflexivity.
Qed.
Print Assumptions train_never_conditions_on_itself_refuted.
