(* C71: estimated normals are best-fitting planes of the nearest neighbours. *)
From Verif Require Import Base RBase Geom LinAlg TopK Knn KnnSpec.
From Verif Require Import Alignment AlignmentSpec Symeig Spectral SymeigSpec.
From Verif Require Import Normals NormalsSpec NormalsProofs NormalsProofs2 NormalsProofs3.
From Coq Require Import Psatz.
Local Open Scope R_scope.

(* Points of the wrong dimension and clouds that are not larger than the neighbourhood are refused. *)
Theorem normals_refused sort eigh eps amax amin dim x K d ws :
  dim <> 3%nat \/ (exists n, In n (nums x) /\ (n <= K)%nat) ->
  local_coord_frames sort eigh eps amax amin dim x K d ws = Fail EValue /\
  normals sort eigh eps amax amin dim x K d ws = Fail EValue.
Proof.
  intros H. assert (E : local_coord_frames sort eigh eps amax amin dim x K d ws = Fail EValue).
  { unfold local_coord_frames. destruct (Nat.eqb_spec dim 3) as [D|D]; cbn [negb]; [|reflexivity].
    destruct H as [H|(n & I & L)]; [contradiction|]. replace (existsb _ _) with true; [reflexivity|].
    symmetry. apply existsb_exists. exists n. split; [exact I|apply Nat.leb_le, L]. }
  split; [exact E|]. unfold normals. rewrite E. reflexivity.
Qed.
Print Assumptions normals_refused.

(* The frame of every point, padding included, is orthonormal; with disambiguated directions it
   is left-handed. The frame of a real point belongs to K nearest neighbours of it in its cloud: with
   torch.linalg.eigh its axes are the principal ones of these neighbours, whose plane of least
   mean squared distance has the first axis as its normal. With disambiguated directions, the
   first and third axes point to the side on which the strict majority of them lies. *)
Theorem local_frames_principal sort eigh eps amax amin x K d ws :
  sorts sort -> (forall a, symmetric a -> eigh_of a (eigh a)) ->
  (ws = true -> normalize_eps <= eps /\ is_argmax amax /\ is_argmin amin) ->
  padded_batch x -> rows x <> [] -> (1 <= K)%nat -> Forall (fun n => (K < n)%nat) (nums x) ->
  exists out, local_coord_frames sort eigh eps amax amin 3 x K d ws = Ok out /\ length out = length (rows x) /\
    forall i j, (i < length (rows x))%nat -> (j < width x)%nat ->
    length (nth i out []) = width x /\
    let '(e, (n, y, z)) := nth j (nth i out []) no_frame in
    orthonormal n y z /\ (d = true -> det3 (columns n y z) = -1) /\
    ((j < nth i (nums x) 0)%nat -> let p := nth j (cloud x i) vzero in
      exists qs, neighbourhood K (cloud x i) p qs /\
        (ws = false -> principal qs e n y z) /\
        (d = true -> (has_majority K p qs n -> (K < 2 * in_front p qs n)%nat) /\
                     (has_majority K p qs z -> (K < 2 * in_front p qs z)%nat))).
Proof.
  intros Hs He Hw Px B1 HK Big. destruct (frames_form sort Hs x K Px B1 HK Big) as (nbs & N & F).
  destruct (F eigh eps amax amin d ws) as (out & E & L & G). exists out. split; [exact E|]. split; [exact L|].
  intros i j Hi Hj. destruct (G i Hi) as [G1 G2]. split; [exact G1|]. rewrite (G2 j Hj). destruct (N i j Hi Hj) as [N1 N2].
  pose proof (point_frame_ok K eigh eps amax amin d ws (nth j (nth i (rows x) []) vzero) (nbs i j) He Hw N1) as P.
  destruct (point_frame _ _ _ _ _ _ _ _ _) as [e [[n y] z]]. destruct P as (P1 & P2 & P3 & P4).
  split; [exact P1|]. split; [exact P2|]. intros J. cbv zeta. exists (nbs i j). split; [apply N2, J|]. split; [exact P3|].
  unfold cloud at 1 2 3 4. rewrite nth_firstn_lt by exact J. exact P4.
Qed.
Print Assumptions local_frames_principal.

(* The normals are the first axes of these frames. *)
Theorem normals_are_first_axes sort eigh eps amax amin dim x K d ws out :
  normals sort eigh eps amax amin dim x K d ws = Ok out <->
  exists frames, local_coord_frames sort eigh eps amax amin dim x K d ws = Ok frames /\
    out = map (map (fun f => let '(_, (n, _, _)) := f in n)) frames.
Proof.
  unfold normals. destruct (local_coord_frames _ _ _ _ _ _ _ _ _ _) as [fr|e]; cbn [rbind].
  - split.
    + intros H. injection H as <-. exists fr. split; [reflexivity|]. apply map_ext. intros l. apply map_ext. intros [e [[n y] z]]. reflexivity.
    + intros (fr' & H & ->). injection H as <-. f_equal. apply map_ext. intros l. apply map_ext. intros [e [[n y] z]]. reflexivity.
  - split; [discriminate|]. intros (fr & H & _). discriminate.
Qed.
Print Assumptions normals_are_first_axes.

(* Where both axes have a strict majority of the neighbours on one side, the frame does not depend
   on the signs torch.linalg.eigh chooses. *)
Theorem frames_sign_determined sort eigh eps amax amin x K :
  sorts sort -> padded_batch x -> rows x <> [] -> (1 <= K)%nat -> Forall (fun n => (K < n)%nat) (nums x) ->
  exists nbs : nat -> nat -> list vec3, exists out out',
    local_coord_frames sort eigh eps amax amin 3 x K true false = Ok out /\
    local_coord_frames sort (reversed eigh) eps amax amin 3 x K true false = Ok out' /\
    forall i j, (i < length (rows x))%nat -> (j < nth i (nums x) 0)%nat -> let p := nth j (cloud x i) vzero in
      neighbourhood K (cloud x i) p (nbs i j) /\
      let '(e, (n, y, z)) := nth j (nth i out []) no_frame in
      (has_majority K p (nbs i j) n -> has_majority K p (nbs i j) z ->
       nth j (nth i out' []) no_frame = (e, (n, y, z))).
Proof.
  intros Hs Px B1 HK Big. destruct (frames_form sort Hs x K Px B1 HK Big) as (nbs & N & F). exists nbs.
  destruct (F eigh eps amax amin true false) as (out & E & _ & G). destruct (F (reversed eigh) eps amax amin true false) as (out' & E' & _ & G').
  exists out, out'. split; [exact E|]. split; [exact E'|]. intros i j Hi J. cbv zeta.
  assert (Hj : (j < width x)%nat) by (destruct Px as (L & _ & W); rewrite Forall_forall in W; specialize (W (nth i (nums x) 0%nat) ltac:(apply nth_In; lia)); lia).
  destruct (N i j Hi Hj) as [N1 N2]. split; [apply N2, J|]. rewrite (proj2 (G i Hi) j Hj), (proj2 (G' i Hi) j Hj).
  replace (nth j (cloud x i) vzero) with (nth j (nth i (rows x) []) vzero) by (unfold cloud; rewrite nth_firstn_lt by exact J; reflexivity).
  exact (point_frame_reversed K eigh eps amax amin (nth j (nth i (rows x) []) vzero) (nbs i j) N1).
Qed.
Print Assumptions frames_sign_determined.

(* In a flat cloud no direction is disambiguated: all projections are 0 and the point itself is one
   of its neighbours, so every normal is the opposite of the vector the solver happens to return,
   and another solver with the opposite signs gives the opposite normals. *)
Theorem normals_of_planes_undetermined sort eigh eps amax amin x K :
  sorts sort -> (forall a, symmetric a -> eigh_of a (eigh a)) ->
  padded_batch x -> rows x <> [] -> (1 <= K)%nat -> Forall (fun n => (K < n)%nat) (nums x) ->
  (forall a, symmetric a -> eigh_of a (reversed eigh a)) /\
  exists out out',
    normals sort eigh eps amax amin 3 x K true false = Ok out /\
    normals sort (reversed eigh) eps amax amin 3 x K true false = Ok out' /\
    forall i j, (i < length (rows x))%nat -> (j < nth i (nums x) 0)%nat -> flat (cloud x i) ->
      dot3 (nth j (nth i out []) vzero) (nth j (nth i out []) vzero) = 1 /\
      nth j (nth i out' []) vzero = opposite (nth j (nth i out []) vzero).
Proof.
  intros Hs He Px B1 HK Big. split; [exact (reversed_ok eigh He)|].
  destruct (frames_form sort Hs x K Px B1 HK Big) as (nbs & N & F).
  destruct (F eigh eps amax amin true false) as (out & E & L & G). destruct (F (reversed eigh) eps amax amin true false) as (out' & E' & L' & G').
  unfold normals. rewrite E, E'. cbn [rbind]. eexists. eexists. split; [reflexivity|]. split; [reflexivity|].
  intros i j Hi J (u & c & U & Fl). destruct Px as (Ln & Q & W). rewrite Forall_forall in W, Q.
  assert (Hj : (j < width x)%nat) by (specialize (W (nth i (nums x) 0%nat) ltac:(apply nth_In; lia)); lia).
  destruct (N i j Hi Hj) as [N1 N2]. specialize (N2 J).
  destruct (G i Hi) as [Lo Go]. destruct (G' i Hi) as [Lo' Go'].
  rewrite !(nth_map_lt _ _ i []) by lia. rewrite !(nth_map_lt _ _ j no_frame) by lia. rewrite (Go j Hj), (Go' j Hj).
  assert (Cp : nth j (nth i (rows x) []) vzero = nth j (cloud x i) vzero) by (unfold cloud; rewrite nth_firstn_lt by exact J; reflexivity).
  assert (Lc : length (cloud x i) = nth i (nums x) 0%nat).
  { unfold cloud. rewrite firstn_length. rewrite (Q (nth i (rows x) [])) by (apply nth_In; exact Hi). specialize (W (nth i (nums x) 0%nat) ltac:(apply nth_In; lia)). lia. }
  assert (Kn : (K < nth i (nums x) 0)%nat) by (rewrite Forall_forall in Big; apply Big, nth_In; lia).
  rewrite Cp. split.
  - pose proof (point_frame_ok K eigh eps amax amin true false (nth j (cloud x i) vzero) (nbs i j) He ltac:(discriminate) N1) as P.
    destruct (point_frame _ _ _ _ _ _ _ _ _) as [e [[n y] z]]. destruct P as (P & _). cbn [fst snd]. apply P.
  - eapply (point_frame_flat); eauto.
    + apply neighbourhood_self with K; [lia|lia|exact N2].
    + intros q Hq. apply Fl. apply (neighbourhood_in K (cloud x i) (nth j (cloud x i) vzero) (nbs i j)); [lia|exact N2|exact Hq].
Qed.
Print Assumptions normals_of_planes_undetermined.

(* the hypotheses are met: two clouds of 4 and 3 points, the second padded, and K = 2; the first is flat *)
Example normals_hypotheses :
  let x := PT 4 [[V3 0 0 0; V3 1 0 0; V3 0 1 0; V3 1 1 0]; [V3 0 0 0; V3 1 0 1; V3 0 1 2; V3 0 0 0]] [4%nat; 3%nat] in
  padded_batch x /\ rows x <> [] /\ Forall (fun n => (2 < n)%nat) (nums x) /\ flat (cloud x 0) /\
  has_majority 2 (V3 0 0 0) [V3 0 0 1; V3 0 1 1] (V3 0 0 (-1)) /\
  (forall a, symmetric a -> exists r, eigh_of a r).
Proof.
  cbv zeta. repeat split; try (repeat constructor; fail); try discriminate.
  - cbn. exists (V3 0 0 1), 0. split; [unfold dot3; cbn; ring|]. intros q Hq. cbn in Hq.
    repeat (destruct Hq as [<-|Hq]; [unfold dot3; cbn; ring|]). contradiction.
  - right. unfold in_front, opposite. cbn [filter]. unfold dot3, scal3, sub3. cbn [x3 y3 z3].
    repeat (match goal with |- context [Rltb ?a ?b] => destruct (Rltb_spec a b); [|exfalso; lra] end). cbn. lia.
  - intros a S. destruct (spectral_sorted a S) as (e1 & e2 & e3 & v1 & v2 & v3 & H & O). exists (V3 e1 e2 e3, (v1, v2, v3)). split; assumption.
Qed.
