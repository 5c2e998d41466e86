(* Subdivision keeps orientations single and the Euler characteristic. *)
From Coq Require Import Sorted Permutation.
From Verif Require Import Base RBase Geom FaceAreas FaceAreasSpec MeshesSpec SubdivideSpec ShapesSpec MeshesProofs10 SubdivideProofs4 ShapesProofs.
Local Open Scope Z_scope.

Lemma low_high_pair x y z w u v E : nth_error E (Z.to_nat u) = Some (low_high (x, y)) -> nth_error E (Z.to_nat v) = Some (low_high (z, w)) ->
  u = v -> (x = z /\ y = w) \/ (x = w /\ y = z).
Proof. intros E1 E2 ->. apply low_high_eq. rewrite E1 in E2. injection E2. intros A B. unfold low_high; cbn. f_equal; auto. Qed.

(* the new faces: those with an old corner, read from it, and the inner ones, read from any corner *)
Definition is_new (V : Z) (C : list corner) (g : face) : Prop :=
  exists q, In q C /\ let '((a, b, c), (i, j, k)) := q in same_face (a, V + k, V + j) g \/ g = (V + i, V + j, V + k).
Lemma same_refl f : same_face f f.
Proof. destruct f as ((a, b), c). cbn. auto. Qed.
Lemma turn_in l q n : In q l -> (n < 3)%nat -> In (nth n (turns q) q) (flat_map turns l).
Proof. intros H Hn. apply in_flat_map. exists q. split; [exact H|]. apply nth_In. exact Hn. Qed.
Lemma new_faces V l g : In g (map (at_a V) l ++ map (at_b V) l ++ map (at_c V) l ++ map (inner V) l) -> is_new V (flat_map turns l) g.
Proof.
  rewrite !in_app_iff, !in_map_iff.
  intros [(q & Q & H)|[(q & Q & H)|[(q & Q & H)|(q & Q & H)]]]; subst g.
  - exists q. split; [apply (turn_in l q 0 H); lia|]. destruct q as (((a, b), c), ((i, j), k)). cbn. auto.
  - exists (rot q). split; [apply (turn_in l q 1 H); lia|]. destruct q as (((a, b), c), ((i, j), k)). cbn. auto.
  - exists (rot (rot q)). split; [apply (turn_in l q 2 H); lia|]. destruct q as (((a, b), c), ((i, j), k)). cbn. auto.
  - exists q. split; [apply (turn_in l q 0 H); lia|]. destruct q as (((a, b), c), ((i, j), k)). cbn. auto.
Qed.
Lemma new_turn V C f g : (forall q, In q C -> In (rot q) C) -> is_new V C f -> same_face f g -> is_new V C g.
Proof.
  intros R (q & H & N) S. destruct q as (((a, b), c), ((i, j), k)). destruct N as [N|N].
  - exists ((a, b, c), (i, j, k)). split; [exact H|]. left. destruct f as ((x, y), z). cbn in *.
    destruct N as [N|[N|N]]; injection N as -> -> ->; destruct S as [-> | [-> | -> ]]; auto.
  - subst f. cbn in S. destruct S as [-> | [-> | -> ]].
    + exists ((a, b, c), (i, j, k)). auto.
    + exists (rot ((a, b, c), (i, j, k))). split; [apply R, H|]. cbn. auto.
    + exists (rot (rot ((a, b, c), (i, j, k)))). split; [apply R, R, H|]. cbn. auto.
Qed.
Theorem subdivided_one_sided p E p' : good_mesh p -> subdivided p E p' -> closed_surface (snd p) -> one_sided (snd p) -> one_sided (snd p').
Proof.
  intros G (HE & _ & t & HF & Hs) HC HO f g Hf Hg S. cbn zeta in Hs. rewrite Hs in Hf, Hg.
  apply new_faces in Hf. apply new_faces in Hg.
  pose proof (C_rot p t) as R. set (C := flat_map turns (combine (snd p) t)) in *. set (V := Z.of_nat (length (fst p))) in *.
  assert (Fine : forall q, In q C -> fine p E q) by (intros q H; eapply C_fine; eassumption).
  assert (Diff : forall a b c i j k, In ((a, b, c), (i, j, k)) C -> a <> b /\ b <> c /\ c <> a) by (intros a b c i j k H; eapply C_differ; eassumption).
  assert (One : forall a b c i j k i' j' k', In ((a, b, c), (i, j, k)) C -> In ((a, c, b), (i', j', k')) C -> False) by (intros a b c i j k i' j' k' H H'; eapply C_one; eassumption).
  destruct Hf as (q & H & N). pose proof (Fine q H) as Fq. destruct q as (((a, b), c), ((i, j), k)).
  pose proof (Diff _ _ _ _ _ _ H) as D. destruct Fq as (((P1 & P2 & P3) & Hi & Hj & Hk) & (Ra & Rb & Rc)). fold V in Ra, Rb, Rc.
  assert (N' : (exists x, x < V /\ x = a /\ is_new V C (a, V + j, V + k)) \/ is_new V C (V + i, V + k, V + j)).
  { assert (T : forall h, same_face g h -> is_new V C h) by (intros h Sh; eapply new_turn; eassumption).
    destruct f as ((x, y), z). destruct N as [N|N].
    - left. exists a. split; [lia|]. split; [reflexivity|]. cbn in N, S. destruct N as [N|[N|N]]; injection N as -> -> ->; apply T; destruct S as [-> | [-> | -> ]]; cbn; auto.
    - right. injection N as -> -> ->. apply T. cbn in S. destruct S as [-> | [-> | -> ]]; cbn; auto. }
  clear f N S g Hg. destruct N' as [(x & _ & _ & N')|N'].
  - destruct N' as (q' & H' & N'). pose proof (Fine q' H') as Fq'. destruct q' as (((a', b'), c'), ((i', j'), k')).
    pose proof (Diff _ _ _ _ _ _ H') as D'. destruct Fq' as (((P1' & P2' & P3') & Hi' & Hj' & Hk') & (Ra' & Rb' & Rc')). fold V in Ra', Rb', Rc'.
    destruct N' as [N'|N']; [|injection N'; lia]. cbn in N'. destruct N' as [N'|[N'|N']]; injection N' as X Y W; try lia. subst a'.
    assert (j = k') as J1 by lia. assert (k = j') as J2 by lia.
    destruct (low_high_pair _ _ _ _ _ _ _ Hj Hk' J1) as [(? & ?)|(? & ?)], (low_high_pair _ _ _ _ _ _ _ Hk Hj' J2) as [(? & ?)|(? & ?)]; try lia.
    subst. eapply One; eassumption.
  - destruct N' as (q' & H' & N'). pose proof (Fine q' H') as Fq'. destruct q' as (((a', b'), c'), ((i', j'), k')).
    pose proof (Diff _ _ _ _ _ _ H') as D'. destruct Fq' as (((P1' & P2' & P3') & Hi' & Hj' & Hk') & (Ra' & Rb' & Rc')). fold V in Ra', Rb', Rc'.
    destruct N' as [N'|N'].
    { cbn in N'. destruct N' as [N'|[N'|N']]; injection N'; lia. }
    injection N' as X Y W. assert (i = i') as J0 by lia. assert (k = j') as J1 by lia. assert (j = k') as J2 by lia.
    destruct (low_high_pair _ _ _ _ _ _ _ Hi Hi' J0) as [(? & ?)|(? & ?)]; destruct (low_high_pair _ _ _ _ _ _ _ Hk Hj' J1) as [(? & ?)|(? & ?)]; destruct (low_high_pair _ _ _ _ _ _ _ Hj Hk' J2) as [(? & ?)|(? & ?)]; try lia.
    subst. eapply One; eassumption.
Qed.

(* a closed surface has three sides per two faces *)
Lemma side_directed f e : side_of e f <-> In e (rim f) \/ In (snd e, fst e) (rim f).
Proof. destruct f as ((a, b), c), e as (u, v). unfold side_of. cbn. tauto. Qed.
Lemma rims n : forall fs, length fs = n -> length (directed fs) = (3 * n)%nat.
Proof. intros fs <-. induction fs as [|((a, b), c) fs IH]; [reflexivity|]. unfold directed in *. cbn [flat_map rim app length]. rewrite IH. lia. Qed.
Lemma closed_edges fs E : closed_surface fs -> edge_list fs E -> (2 * length E = 3 * length fs)%nat.
Proof.
  intros (N & B) (Sort & HE).
  assert (In_E : forall u v, In (u, v) E <-> u < v /\ In (u, v) (directed fs)).
  { intros u v. rewrite HE. cbn. split.
    - intros (Le & f & Hf & Hs). apply side_directed in Hs. cbn in Hs.
      assert (X : In (u, v) (directed fs)).
      { destruct Hs as [Hs|Hs]; [apply in_flat_map; eauto|]. apply B. apply in_flat_map. eauto. }
      split; [|exact X]. apply B in X. lia.
    - intros (Lt & X). split; [lia|]. apply in_flat_map in X. destruct X as (f & Hf & Hs). exists f. split; [exact Hf|]. apply side_directed. auto. }
  assert (NE : NoDup E) by (apply lex_sorted_nodup; exact Sort).
  assert (P : Permutation (directed fs) (E ++ map (fun e => (snd e, fst e)) E)).
  { apply NoDup_Permutation; [exact N| |].
    - apply nodup_app; [exact NE| |].
      + apply nodup_map_in; [exact NE|]. intros (u, v) (u', v') _ _ Q. cbn in Q. congruence.
      + intros (u, v) H H'. apply in_map_iff in H'. destruct H' as ((u', v') & Q & H'). cbn in Q. injection Q as -> ->. apply In_E in H, H'. lia.
    - intros (u, v). rewrite in_app_iff, in_map_iff. split.
      + intros X. destruct (B _ _ X) as (Ne & X'). destruct (Z.lt_trichotomy u v) as [L|[L|L]]; [left; apply In_E; auto|lia|].
        right. exists (v, u). split; [reflexivity|]. apply In_E. auto.
      + intros [X|((u', v') & Q & X)]; [apply In_E, X|]. cbn in Q. injection Q as -> ->. apply In_E in X. apply B, X. }
  apply Permutation_length in P. rewrite (rims (length fs)) in P by reflexivity. rewrite app_length, map_length in P. lia.
Qed.
Theorem subdivided_euler p E p' E' : good_mesh p -> subdivided p E p' -> closed_surface (snd p) -> one_sided (snd p) -> edge_list (snd p') E' ->
  euler p' E' = euler p E.
Proof.
  intros G S C O HE'. destruct (subdivided_good _ _ _ G S) as (_ & LV & LF).
  pose proof (closed_edges _ _ (subdivided_closed _ _ _ G S C O) HE') as Q'. pose proof (closed_edges _ _ C (proj1 S)) as Q.
  unfold euler. lia.
Qed.
