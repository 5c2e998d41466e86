(* Subdivision of a batch, stated mesh by mesh; the case without faces. *)
From Coq Require Import Lra.
From Verif Require Import Base Packing PackingProofs RBase Geom FaceAreas FaceAreasSpec Meshes MeshesSpec MeshesHistSpec MeshesProofs MeshesProofs5 MeshesProofs6 MeshesProofs7 MeshesProofs8 MeshesProofs9 MeshesProofs10 MeshesProofs11 Subdivide SubdivideSpec SubdivideProofs SubdivideProofs2 SubdivideProofs3 SubdivideProofs4 SubdivideProofs5.
Local Open Scope nat_scope.

Lemma subdivided_all b Es b' : length Es = length b -> length b' = length b ->
  (forall n, n < length b -> subdivided (nth n b no_mesh) (nth n Es []) (nth n b' no_mesh)) -> subdivided_batch b Es b'.
Proof.
  revert Es b'. induction b as [|p b IH]; intros [|E Es] [|p' b'] L1 L2 H; cbn in L1, L2; try discriminate; constructor.
  - exact (H 0 ltac:(cbn; lia)).
  - apply IH; [lia|lia|]. intros n Hn. exact (H (S n) ltac:(cbn; lia)).
Qed.
Lemma subdivided_same b E b' : length b' = length b ->
  (forall n, n < length b -> subdivided (nth n b no_mesh) E (nth n b' no_mesh)) -> subdivided_batch b (map (fun _ => E) b) b'.
Proof.
  intros L H. apply subdivided_all; [apply map_length|exact L|]. intros n Hn. erewrite (nth_error_nth (map (fun _ => E) b)); [exact (H n Hn)|]. rewrite nth_error_map_iff, (nth_error_nth' b no_mesh) by exact Hn. reflexivity.
Qed.
Lemma seq_nth_combine {F} (d : F) mean Fs Es : length Fs = length Es ->
  map (fun n => split_edges d mean (nth n Fs []) (nth n Es [])) (seq 0 (length Fs)) = map (fun q => split_edges d mean (fst q) (snd q)) (combine Fs Es).
Proof.
  revert Es. induction Fs as [|f Fs IH]; intros [|E Es] L; try discriminate; [reflexivity|]. cbn [combine map length seq nth fst snd]. f_equal. rewrite <- seq_shift, map_map. apply IH. cbn in L. lia.
Qed.
Theorem hetero_batch argsort {F} (d : F) (mean : F -> F -> F) m a (feats : option (list F)) : sorts argsort ->
  reachable argsort m a -> (forall f, feats = Some f -> length f = length (all_verts (batch a))) ->
  exists o nf m' b' Es, subdivide_heterogeneous argsort mean m feats = Ok (o, nf, m') /\ reachable argsort m' a /\
    subdivided_batch (batch a) Es b' /\ reachable argsort o (from_lists b') /\
    match feats with
    | None => nf = None
    | Some f => exists Fs, pieces (vcount (batch a)) f Fs /\ nf = Some (concat (map (fun q => split_edges d mean (fst q) (snd q)) (combine Fs Es)))
    end.
Proof.
  intros Hs H Hf. destruct (hetero_ok argsort Hs d mean m a feats H Hf) as (o & nf & m' & b' & Es & H1 & H2 & H3 & H4 & H5 & H6 & H7).
  exists o, nf, m', b', Es. split; [exact H1|]. split; [exact H2|]. split; [apply subdivided_all; assumption|]. split; [exact H6|].
  destruct feats as [f|]; [|exact H7]. destruct H7 as (Fs & (P1 & P2) & Hn). exists Fs. split; [split; assumption|]. rewrite Hn.
  assert (LF : length Fs = length (batch a)) by (rewrite <- (map_length (@length F)), P2; unfold vcount; apply map_length). rewrite <- LF, seq_nth_combine by congruence. reflexivity.
Qed.
Theorem homo_batch argsort {F} (d : F) (mean : F -> F -> F) m0 a0 p0 rest m a (feats : option feats_arg) : sorts argsort ->
  reachable argsort m0 a0 -> batch a0 = p0 :: rest -> snd p0 <> [] ->
  reachable argsort m a -> (forall p, In p (batch a) -> snd p = snd p0 /\ length (fst p) = length (fst p0)) ->
  (forall f, feats = Some f -> exists Fs, feature_rows f Fs /\ map (@length F) Fs = vcount (batch a)) ->
  exists faces o nf m' b' E a', precompute argsort m0 = Ok faces /\ subdivide_homogeneous argsort mean faces m feats = Ok (o, nf, m') /\ reachable argsort m' a /\
    subdivided_batch (batch a) (map (fun _ => E) (batch a)) b' /\ batch a' = b' /\ reachable argsort o a' /\
    match feats with
    | None => nf = None
    | Some f => exists Fs, feature_rows f Fs /\ map (@length F) Fs = vcount (batch a) /\ nf = Some (map (fun r => split_edges d mean r E) Fs)
    end.
Proof.
  intros Hs H0 Hb Hp H Hsame Hf. assert (G0 : Forall good_mesh [p0]) by (destruct (reachable_shows argsort Hs m0 a0 H0) as (_ & _ & G); rewrite Hb in G; apply Forall_cons_iff in G; constructor; [apply G|constructor]).
  destruct (own_edges_exist [p0] G0) as (Es & HE). inversion HE as [|q0 E l0 l1 HE0 X0 X1 X2]. subst.
  destruct (homo_ok argsort Hs d mean m0 a0 p0 rest m a feats E H0 Hb Hp H Hsame HE0 Hf) as (faces & o & nf & m' & b' & H1 & H2 & H3 & H4 & H5 & (a' & H6 & H7) & H8).
  exists faces, o, nf, m', b', E, a'. split; [exact H1|]. split; [exact H2|]. split; [exact H3|]. split; [apply subdivided_same; assumption|]. auto.
Qed.
