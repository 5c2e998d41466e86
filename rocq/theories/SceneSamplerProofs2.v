From Coq Require Import ZArith Reals String Bool Permutation Lia Lra Sorted.
From Verif Require Import Base RBase Stats StatsProofs SceneSampler SceneSamplerSpec SceneSamplerProofs.
Local Open Scope list_scope.

Definition or_nil {A} (o : option (list A)) : list A := match o with Some l => l | None => [] end.
Section Group.
Context {A B : Type} (key : A -> string) (val : A -> B).
Definition group_step (d : list (string * list B)) (p : A) := put (key p) (or_nil (get (key p) d) ++ [val p]) d.
Lemma group_put k (v : B) d : NoDup (map fst d) -> Permutation (concat (map snd (put k (or_nil (get k d) ++ [v]) d))) (concat (map snd d) ++ [v]).
Proof.
  induction d as [|(k', l) d IH]; cbn [map fst put get]; intros ND; [cbn; apply Permutation_refl|]. inversion ND as [|x y N1 N2]; subst. destruct (String.eqb_spec k k') as [->|N]; cbn [map snd concat or_nil].
  - rewrite <- !app_assoc. apply Permutation_app_head. apply Permutation_app_comm.
  - rewrite <- app_assoc. apply Permutation_app_head. apply IH. exact N2.
Qed.
Lemma group_ok l : forall d, NoDup (map fst d) -> let d' := fold_left group_step l d in
  NoDup (map fst d') /\ (forall k, or_nil (get k d') = or_nil (get k d) ++ map val (filter (fun p => String.eqb (key p) k) l)) /\
  Permutation (concat (map snd d')) (concat (map snd d) ++ map val l).
Proof.
  induction l as [|p l IH]; intros d ND; cbn [fold_left].
  - split; [exact ND|]. split; [intros k; cbn; rewrite app_nil_r; reflexivity|]. cbn. rewrite app_nil_r. apply Permutation_refl.
  - destruct (IH (group_step d p)) as (H1 & H2 & H3); [apply put_nodup; exact ND|]. split; [exact H1|]. split.
    + intros k. rewrite H2. unfold group_step. cbn [filter]. destruct (String.eqb_spec (key p) k) as [<-|N].
      * rewrite get_put_same. cbn [or_nil map]. rewrite <- app_assoc. reflexivity.
      * rewrite get_put_other by congruence. reflexivity.
    + etransitivity; [exact H3|]. unfold group_step. rewrite (group_put (key p) (val p) d ND). cbn [map]. rewrite <- app_assoc. reflexivity.
Qed.
End Group.

Lemma stamp_ltb_spec a b : reflect (before a b) (stamp_ltb a b).
Proof.
  apply iff_reflect. unfold before, stamp_ltb. rewrite orb_true_iff, andb_true_iff, orb_true_iff, andb_true_iff, Z.ltb_lt, Z.eqb_eq, Nat.ltb_lt. destruct (Rltb_spec (f_ts a) (f_ts b)); destruct (Reqb_spec (f_ts a) (f_ts b)); intuition (try lra; try discriminate).
Qed.
Lemma before_total a b : ~ before a b -> ~ before b a -> a = b.
Proof.
  unfold before. destruct a as ((ta, na), ia), b as ((tb, nb), ib). unfold f_ts, f_no, f_idx. cbn [fst snd]. intros H1 H2. destruct (Rtotal_order ta tb) as [C|[C|C]]; [exfalso; apply H1; auto| |exfalso; apply H2; auto]. subst tb.
  destruct (Z.lt_trichotomy na nb) as [C|[C|C]]; [exfalso; apply H1; auto| |exfalso; apply H2; auto]. subst nb. f_equal.
  destruct (Nat.lt_trichotomy ia ib) as [C|[C|C]]; [exfalso; apply H1; auto|exact C|exfalso; apply H2; auto].
Qed.
Lemma before_trans a b c : before a b -> before b c -> before a c.
Proof.
  unfold before. intros [H1|(E1 & [H1|(F1 & H1)])] [H2|(E2 & [H2|(F2 & H2)])].
  - left. lra. - left. lra. - left. lra. - left. lra. - right. split; [lra|]. left. lia. - right. split; [lra|]. left. lia. - left. lra. - right. split; [lra|]. left. lia. - right. split; [lra|]. right. split; lia.
Qed.
Lemma before_irrefl a : ~ before a a.
Proof. unfold before. intros [H|(_ & [H|(_ & H)])]; [lra|lia|lia]. Qed.
Lemma insert_perm x l : Permutation (insert_stamp x l) (x :: l).
Proof. induction l as [|y l IH]; cbn; [apply Permutation_refl|]. destruct (stamp_ltb y x); [|apply Permutation_refl]. etransitivity; [apply perm_skip; exact IH|]. apply perm_swap. Qed.
Lemma sorted_perm l : Permutation (sorted_stamps l) l.
Proof. induction l as [|x l IH]; cbn; [constructor|]. etransitivity; [apply insert_perm|]. apply perm_skip. exact IH. Qed.
Lemma insert_sorted x l : ~ In x l -> StronglySorted before l -> StronglySorted before (insert_stamp x l).
Proof.
  intros N HS. induction HS as [|y l HS IH HF]; cbn; [constructor; constructor|]. destruct (stamp_ltb_spec y x) as [B|B].
  - constructor; [apply IH; intros C; apply N; right; exact C|]. apply (Permutation_Forall (Permutation_sym (insert_perm x l))). constructor; [exact B|exact HF].
  - assert (XY : before x y). { destruct (stamp_ltb_spec x y) as [C|C]; [exact C|]. exfalso. apply N. left. apply before_total; assumption. }
    constructor; [constructor; assumption|]. constructor; [exact XY|]. eapply Forall_impl; [|exact HF]. intros z Hz. eapply before_trans; eassumption.
Qed.
Lemma sorted_ok l : NoDup l -> StronglySorted before (sorted_stamps l).
Proof.
  induction 1 as [|x l N _ IH]; cbn; [constructor|]. apply insert_sorted; [|exact IH]. intros C. apply N. apply (Permutation_in _ (sorted_perm l)). exact C.
Qed.

Section Json.
Variables (anns : list annotation).
Definition positions (name : string) : list nat := map fst (filter (fun p => String.eqb (a_seq (snd p)) name) (combine (seq 0 (length anns)) anns)).
Lemma combine_nth i a : In (i, a) (combine (seq 0 (length anns)) anns) <-> nth_error anns i = Some a.
Proof.
  assert (G : forall (l : list annotation) s, In (i, a) (combine (seq s (length l)) l) <-> (s <= i)%nat /\ nth_error l (i - s) = Some a).
  { induction l as [|x l IH]; intros s; cbn [length seq combine].
    - split; [intros []|]. intros (_ & H). destruct (i - s)%nat; discriminate.
    - cbn [In]. rewrite IH. split.
      + intros [E|(L & H)]; [injection E as <- <-; split; [lia|]; replace (s - s)%nat with 0%nat by lia; reflexivity|]. split; [lia|]. replace (i - s)%nat with (S (i - S s)) by lia. exact H.
      + intros (L & H). destruct (i - s)%nat as [|k] eqn:E; [left; cbn in H; injection H as ->; f_equal; lia|]. right. split; [lia|]. replace (i - S s)%nat with k by lia. exact H. }
  rewrite (G anns 0%nat). replace (i - 0)%nat with i by lia. intuition lia.
Qed.
Lemma positions_in name i : In i (positions name) <-> exists a, nth_error anns i = Some a /\ a_seq a = name.
Proof.
  unfold positions. rewrite in_map_iff. split.
  - intros ((j, a) & <- & H). apply filter_In in H. destruct H as (H & E). apply String.eqb_eq in E. apply combine_nth in H. exists a. auto.
  - intros (a & H & E). exists (i, a). split; [reflexivity|]. apply filter_In. split; [apply combine_nth; exact H|]. cbn. apply String.eqb_eq. exact E.
Qed.
Lemma positions_nodup name : NoDup (positions name).
Proof.
  unfold positions. assert (G : forall (l : list annotation) s, NoDup (map fst (filter (fun p => String.eqb (a_seq (snd p)) name) (combine (seq s (length l)) l))) /\ forall i, In i (map fst (filter (fun p => String.eqb (a_seq (snd p)) name) (combine (seq s (length l)) l))) -> (s <= i)%nat).
  { induction l as [|x l IH]; intros s; cbn; [split; [constructor|intros i []]|]. destruct (IH (S s)) as (H1 & H2). destruct (String.eqb (a_seq x) name); cbn.
    - split; [constructor; [intros C; apply H2 in C; lia|exact H1]|]. intros i [<-|H]; [lia|]. apply H2 in H. lia.
    - split; [exact H1|]. intros i H. apply H2 in H. lia. }
  apply G.
Qed.
Lemma idx_ok name : or_nil (get name (seq_to_idx anns)) = positions name.
Proof. unfold seq_to_idx, positions. destruct (group_ok (fun p : nat * annotation => a_seq (snd p)) fst (combine (seq 0 (length anns)) anns) []) as (_ & H & _); [constructor|]. specialize (H name). cbn [get or_nil app] in H. exact H. Qed.
Definition stamp_of (i : nat) : stamp := match nth_error anns i with Some a => (a_ts a, a_no a, i) | None => (0%R, 0%Z, i) end.
Lemma in_order name : frames_in_order anns name None = Ok (sorted_stamps (map stamp_of (positions name))).
Proof.
  unfold frames_in_order. change (match get name (seq_to_idx anns) with Some l => l | None => [] end) with (or_nil (get name (seq_to_idx anns))). rewrite idx_ok.
  assert (HP : List.Forall (fun i => exists a, nth_error anns i = Some a) (positions name)) by (apply Forall_forall; intros i Hi; apply positions_in in Hi; destruct Hi as (a & H & _); exists a; exact H).
  assert (K : exists nt, numbers_and_timestamps anns (positions name) None = Ok nt /\ map (fun p : nat * (Z * R) => (snd (snd p), fst (snd p), fst p)) (combine (positions name) nt) = map stamp_of (positions name)).
  { unfold numbers_and_timestamps. induction HP as [|i l (a & Ha) HP IH]; [exists []; split; reflexivity|]. cbn [rmap]. rewrite Ha. cbn [rbind]. destruct IH as (nt & E1 & E2). destruct (rmap _ l) as [x|]; [|discriminate]. cbn [rbind] in *. injection E1 as <-. eexists. split; [reflexivity|]. cbn [concat app combine map fst snd]. rewrite E2. unfold stamp_of at 2. rewrite Ha. reflexivity. }
  destruct K as (nt & E1 & E2). rewrite E1. cbn [rbind]. rewrite E2. reflexivity.
Qed.
Lemma stamp_idx i : f_idx (stamp_of i) = i.
Proof. unfold stamp_of. destruct (nth_error anns i); reflexivity. Qed.
Lemma json_frames cats name : let l := frames_of (json_dataset anns cats) name in
  StronglySorted before l /\ (forall f, In f l <-> annotated anns name f) /\ NoDup (map f_idx l).
Proof.
  cbv zeta. cbn [json_dataset frames_of]. rewrite in_order.
  assert (MI : map f_idx (map stamp_of (positions name)) = positions name) by (rewrite map_map; rewrite <- (map_id (positions name)) at 2; apply map_ext; apply stamp_idx).
  assert (ND : NoDup (map stamp_of (positions name))). { apply (NoDup_map_inv f_idx). rewrite MI. apply positions_nodup. }
  split; [apply sorted_ok; exact ND|]. split.
  - intros f. split.
    + intros H. apply (Permutation_in _ (sorted_perm _)) in H. apply in_map_iff in H. destruct H as (i & <- & H). apply positions_in in H. destruct H as (a & Ha & Hn). exists a. rewrite stamp_idx. split; [exact Ha|]. split; [exact Hn|]. unfold stamp_of. rewrite Ha. split; reflexivity.
    + intros (a & Ha & Hn & H1 & H2). apply (Permutation_in _ (Permutation_sym (sorted_perm _))). apply in_map_iff. exists (f_idx f). split; [|apply positions_in; exists a; auto]. unfold stamp_of. rewrite Ha, H1, H2. destruct f as ((t, n), i). reflexivity.
  - apply (Permutation_NoDup (l := map f_idx (map stamp_of (positions name)))); [apply Permutation_map; apply Permutation_sym; apply sorted_perm|]. rewrite MI. apply positions_nodup.
Qed.
Lemma json_well_formed cats : NoDup (map fst cats) -> well_formed (json_dataset anns cats).
Proof.
  intros NC. split; [|split; [|split; [|split]]].
  - cbn. destruct (group_ok (fun p : nat * annotation => a_seq (snd p)) fst (combine (seq 0 (length anns)) anns) []) as (H & _ & _); [constructor|]. exact H.
  - intros name. apply (json_frames cats name).
  - intros n1 n2 i H1 H2. unfold indices_of in H1, H2. apply in_map_iff in H1, H2. destruct H1 as (f1 & <- & H1), H2 as (f2 & E & H2). apply (json_frames cats n1) in H1. apply (json_frames cats n2) in H2. destruct H1 as (a1 & A1 & B1 & _), H2 as (a2 & A2 & B2 & _). rewrite E, A1 in A2. injection A2 as <-. congruence.
  - cbn. unfold category_names. destruct (group_ok (fun p : string * string => snd p) fst cats []) as (H & _ & _); [constructor|]. exact H.
  - cbn. unfold category_names. destruct (group_ok (fun p : string * string => snd p) fst cats []) as (_ & _ & H); [constructor|]. cbn [map concat app] in H. eapply Permutation_NoDup; [apply Permutation_sym; exact H|exact NC].
Qed.
End Json.
