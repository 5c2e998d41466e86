From Verif Require Import Base Packing PackingProofs PackOpsProofs RBase Geom FaceAreas FaceAreasSpec Meshes MeshesSpec MeshesHistSpec Pointclouds PointcloudsSpec.
From Verif Require Import MeshesProofs MeshesProofs4 MeshesProofs6 MeshesProofs7 MeshesProofs8 MeshesProofs9 PointcloudsProofs PointcloudsProofs2 PointcloudsProofs3 PointcloudsProofs4 PointcloudsProofs5 PointcloudsProofs6.
Local Open Scope nat_scope.

Section Features.
Variable F : Type.
Variable fzero : F.
Notation row := (row F). Notation cloud := (cloud F). Notation pc := (pointclouds F). Notation cstate := (cstate F).
Local Arguments cN {F} _. Local Arguments cP {F} _. Local Arguments ceq {F} _. Local Arguments cvalid {F} _. Local Arguments counts {F} _.
Local Arguments pts_l {F} _. Local Arguments pts_p {F} _. Local Arguments nrm {F} _. Local Arguments fts {F} _. Local Arguments cpk {F} _. Local Arguments cp2p {F} _.
Local Arguments pos {F} _. Local Arguments nor {F} _. Local Arguments fea {F} _. Local Arguments sizes {F} _. Local Arguments largest {F} _. Local Arguments points_of {F} _.
Local Arguments column {F A} _ _ _. Local Arguments has_a_point {F} _. Local Arguments clouds {F} _. Local Arguments ppad {F} _. Local Arguments npad {F} _. Local Arguments fpad {F} _.
Local Arguments CS {F} _ _ _ _. Local Arguments points_list {F} _. Local Arguments normals_list {F} _. Local Arguments features_list {F} _.
Local Arguments vals {F A} _ _ _. Local Arguments col {F A} _ _ _ _. Local Arguments uni {F A} _ _ _. Local Arguments pads {F A} _ _.
Local Arguments cwf {F} _ _ _. Local Arguments crepr {F} _ _ _ _ _. Local Arguments aux_ok {F A} _ _ _ _ _ _ _. Local Arguments put {F A} _ _ _. Local Arguments rest {F A} _ _. Local Arguments fits {F A} _ _.
Local Arguments list_arg {F A} _ _ _. Local Arguments pad_arg {F A} _ _ _. Local Arguments full_batch {F} _.

Lemma f2len {A B} {P : A -> B -> Prop} {l l'} (H : Forall2 P l l') : length l = length l'.
Proof. induction H; cbn; congruence. Qed.
Local Arguments moved {F} _ _. Local Arguments fresh {F} _ _ _ _. Local Arguments updated {F} _ _ _ _. Local Arguments fits_opt {F A} _ _.
Local Arguments sampled {F} _ _ _ _. Local Arguments sampled_all {F} _ _ _ _. Local Arguments built {F} _ _ _ _ _. Local Arguments listed {F} _ _ _ _ _.

Lemma chunk_in {T} sz : forall (l : list T) c x, In c (chunks sz l) -> In x c -> In x l.
Proof.
  induction sz as [|n sz IH]; intros l c x Hc Hx; [destruct Hc|]. rewrite <- (firstn_skipn n l). apply in_or_app. destruct Hc as [<-|Hc]; [left; exact Hx|right; eapply IH; eassumption].
Qed.
Lemma parts_show sz hn hf os (b : list cloud) : uni nor hn b -> uni fea hf b -> Forall2 (fun o b => built fzero o b hn hf) os (chunks sz b) -> Forall2 (cshows F) os (chunks sz b).
Proof.
  intros Un Uf H. assert (I : forall c, In c (chunks sz b) -> uni nor hn c /\ uni fea hf c).
  { intros c Hc. split; (eapply uni_incl; [intros x Hx; eapply chunk_in; eassumption|]); assumption. }
  induction H as [|o k os ks Hb _ IH]; constructor.
  - destruct (I k (or_introl eq_refl)). eapply built_shows; eassumption.
  - apply IH. intros c Hc. apply I. right. exact Hc.
Qed.
Lemma split_join sz a hn hf (c : pc) : cwf a hn hf -> crepr fzero a hn hf c -> Forall (fun n => 0 < n) sz -> sum_nat sz = length (clouds a) ->
  exists os c' o, cloud_split F sz c = Ok (os, c') /\ map cN os = sz /\ join_clouds F os = Ok o /\ cbehaves F fzero o (of_lists F fzero (clouds a)).
Proof.
  intros Hw R Hz Hs. destruct (split_ok F fzero sz 0 a hn hf c Hw R) as (os & c' & E & R' & Hf). cbn [skipn] in Hf.
  destruct (chunks_concat sz (clouds a) Hs) as (C1 & C2).
  assert (NE : Forall (fun k => k <> []) (chunks sz (clouds a))).
  { apply Forall_forall. intros k Hk ->. rewrite Forall_forall in Hz. assert (I : In 0 sz) by (rewrite <- C2; apply (in_map (@length _) _ _ Hk)). apply Hz in I. lia. }
  assert (L : Forall2 (fun c b => listed fzero c b hn hf) os (chunks sz (clouds a)) /\ map cN os = map (@length _) (chunks sz (clouds a))).
  { clear - Hf NE. induction Hf as [|o k os ks Hb _ IH]; [split; [constructor|reflexivity]|]. apply Forall_cons_iff in NE. destruct NE as (N1 & N2). destruct (IH N2) as (I1 & I2). split.
    - constructor; [apply built_listed; assumption|exact I1].
    - cbn [map]. rewrite I2. f_equal. unfold built in Hb. rewrite new_given in Hb by exact N1. injection Hb as <-. reflexivity. }
  destruct L as (L1 & L2). pose proof (point_nonempty F _ (w_pt _ _ _ _ Hw)) as Hne.
  assert (No : os <> []).
  { intros ->. inversion Hf as [Z|]. destruct sz; [|discriminate]. cbn in Hs. destruct (clouds a); [contradiction|discriminate]. }
  destruct (join_ok F fzero os _ hn hf No L1) as (o & Eo & B). rewrite C1 in B. exists os, c', o. split; [exact E|]. split; [rewrite L2; exact C2|]. split; [exact Eo|].
  destruct (built_repr F fzero o _ hn hf (w_pt _ _ _ _ Hw) (w_nor _ _ _ _ Hw) (w_fea _ _ _ _ Hw) B) as (W & Ro). exact (repr_behaves F fzero _ _ _ _ W Ro).
Qed.
Lemma subsample_all a hn hf (c : pc) mx keeps : cwf a hn hf -> crepr fzero a hn hf c ->
  length (maxima F mx (clouds a)) = length (clouds a) -> length keeps = length (clouds a) ->
  (forall i k m p, nth_error (clouds a) i = Some k -> nth_error (maxima F mx (clouds a)) i = Some m -> nth_error keeps i = Some p -> m < @length row k ->
     length p = m /\ NoDup p /\ Forall (fun j => j < @length row k) p) ->
  exists b' o c', sampled_all (maxima F mx (clouds a)) keeps (clouds a) b' /\
    sizes b' = map (fun q => Nat.min (@length row (fst q)) (snd q)) (combine (clouds a) (maxima F mx (clouds a))) /\
    subsample F mx keeps c = Ok (o, c') /\ cshows F o b' /\ (has_a_point b' -> exists a', clouds a' = b' /\ cbehaves F fzero o a') /\ cbehaves F fzero c' a.
Proof.
  intros Hw R L1 L2 Hk. destruct (choice_sampled F (maxima F mx (clouds a)) keeps (clouds a) L1 L2 Hk) as (b' & Hs & Hz).
  destruct (subsample_ok F fzero a hn hf c mx keeps b' Hw R Hs) as (o & c' & E & R' & D). exists b', o, c'. split; [exact Hs|]. split; [exact Hz|]. split; [exact E|].
  assert (Bc : cbehaves F fzero c' a) by exact (repr_behaves F fzero _ _ _ _ Hw R').
  destruct D as [(_ & -> & ->)|(_ & B)].
  - split; [eapply listed_shows; [apply Hw|apply Hw|apply repr_listed; eassumption]|]. split; [|exact Bc]. intros _. exists a. split; [reflexivity|]. exact (repr_behaves F fzero _ _ _ _ Hw R).
  - assert (Un : uni nor hn b') by (eapply sampled_incl; [exact Hs|apply Hw]). assert (Uf : uni fea hf b') by (eapply sampled_incl; [exact Hs|apply Hw]).
    split; [eapply built_shows; eassumption|]. split; [|exact Bc]. intros Hp. exists (of_lists F fzero b'). split; [reflexivity|].
    destruct (built_repr F fzero o b' hn hf Hp Un Uf B) as (W & Ro). exact (repr_behaves F fzero _ _ _ _ W Ro).
Qed.
Lemma subsample_bad a hn hf (c : pc) mx keeps : crepr fzero a hn hf c -> length (maxima F mx (clouds a)) <> length (clouds a) -> subsample F mx keeps c = Fail EValue.
Proof.
  intros R L. unfold subsample.
  replace (match mx with MaxOne k => repeat k (cN c) | MaxEach l => l end) with (maxima F mx (clouds a)) by (unfold maxima; rewrite (q_N _ _ _ _ _ _ R); reflexivity).
  rewrite (q_N _ _ _ _ _ _ R). apply Nat.eqb_neq in L. rewrite L. reflexivity.
Qed.
Lemma get_cloud_columns a hn hf (c : pc) i k : cwf a hn hf -> crepr fzero a hn hf c -> (0 <= i)%Z -> nth_error (clouds a) (Z.to_nat i) = Some k ->
  exists n f, get_cloud F i c = Ok (map pos k, n, f) /\ column nor [k] (option_map (fun l => [l]) n) /\ column fea [k] (option_map (fun l => [l]) f).
Proof.
  intros Hw R Hi Hk. do 2 eexists. split; [exact (get_cloud_ok F fzero a hn hf c i k Hw R Hi Hk)|]. apply nth_error_In in Hk.
  assert (G : forall A (f : row -> option A) z h, uni f h (clouds a) -> column f [k] (option_map (fun l => [l]) (option_map (fun b => concat b) (col f z h [k])))).
  { intros A f z h U. assert (U1 : uni f h [k]) by (eapply uni_incl; [|exact U]; intros x [<-|[]]; exact Hk). pose proof (col_column F f z h [k] U1) as C. destruct h; cbn in *; [|exact C]. rewrite app_nil_r. exact C. }
  split; apply G; apply Hw.
Qed.
Lemma boxes_for_length g (b : list cloud) : b <> [] -> (length (match g with BoxOne x => [x] | BoxEach l => l end) = 1 \/ length (match g with BoxOne x => [x] | BoxEach l => l end) = length b) ->
  length (boxes_for F g b) = length b.
Proof.
  intros Hb H. destruct g as [x|[|x [|y l]]]; cbn in *; rewrite ?repeat_length; auto.
  - destruct b; [contradiction|cbn in H; lia].
  - destruct H; [lia|assumption].
Qed.
End Features.
