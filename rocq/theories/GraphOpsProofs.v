From Verif Require Import Base RBase GraphOps GraphOpsSpec CompositeSpec CompositeProofs.
Local Open Scope R_scope.

Definition at_v (v d : nat) (ws : list gwrite) : R :=
  rsum (map (fun w => let '(a, b, x) := w in if ((v =? a) && (d =? b))%nat then x else 0) ws).
Lemma gs_run_acc ws : forall g v d,
  fold_left (fun g w => let '(v, d, x) := w in fun a b => if ((a =? v) && (b =? d))%nat then g a b + x else g a b) ws g v d
  = g v d + at_v v d ws.
Proof.
  induction ws as [|[[a b] x] ws IH]; intros g v d; cbn [fold_left]; [unfold at_v; cbn; ring|].
  rewrite IH. unfold at_v. cbn [map]. rewrite rsum_cons. destruct ((v =? a) && (d =? b))%nat; ring.
Qed.
Lemma gs_run_at ws v d : gs_run ws v d = at_v v d ws.
Proof. unfold gs_run. rewrite gs_run_acc. ring. Qed.
Lemma at_v_flat {A} v d (g : A -> list gwrite) l : at_v v d (flat_map g l) = rsum (map (fun a => at_v v d (g a)) l).
Proof.
  induction l as [|a l IH]; [reflexivity|]. cbn [flat_map map]. rewrite rsum_cons, <- IH. unfold at_v. rewrite map_app, rsum_app. reflexivity.
Qed.
Lemma at_v_perm v d ws ws' : Permutation ws ws' -> at_v v d ws = at_v v d ws'.
Proof. intros P. apply rsum_perm, Permutation_map, P. Qed.
Definition delta (a b : nat) : R := if (a =? b)%nat then 1 else 0.
Lemma at_v_edge D directed backward x e v d : (d < D)%nat ->
  at_v v d (gs_edge D directed backward x e) =
  delta v (if backward then snd e else fst e) * x (if backward then fst e else snd e) d +
  (if directed then 0 else delta v (if backward then fst e else snd e) * x (if backward then snd e else fst e) d).
Proof.
  intros Hd. unfold gs_edge. set (v0 := if backward then snd e else fst e). set (v1 := if backward then fst e else snd e).
  rewrite at_v_flat.
  transitivity (sumf D (fun j => if (j =? d)%nat then delta v v0 * x v1 d + (if directed then 0 else delta v v1 * x v0 d) else 0)).
  - apply rsum_map_ext. intros j _. unfold at_v, delta. destruct directed; cbn [map]; rewrite ?rsum_cons; cbn [rsum map fold_right];
      rewrite (Nat.eqb_sym d j); destruct (Nat.eqb_spec j d) as [->|]; rewrite ?Bool.andb_true_r, ?Bool.andb_false_r;
      destruct (v =? v0)%nat; try (destruct (v =? v1)%nat); ring.
  - apply sumf_single, Hd.
Qed.
Lemma at_v_edge_out D directed backward x e v d : (D <= d)%nat -> at_v v d (gs_edge D directed backward x e) = 0.
Proof.
  intros Hd. unfold gs_edge. rewrite at_v_flat. apply rsum_map_zero. intros j Hj. apply in_seq in Hj.
  unfold at_v. destruct directed; cbn [map]; rewrite ?rsum_cons; cbn [rsum map fold_right];
    destruct (Nat.eqb_spec d j) as [->|]; try lia; rewrite ?Bool.andb_false_r; ring.
Qed.

Lemma sumf_rsum {A} n (g : nat -> A -> R) (l : list A) : sumf n (fun i => rsum (map (g i) l)) = rsum (map (fun a => sumf n (fun i => g i a)) l).
Proof.
  induction l as [|a l IH]; cbn [map]; [apply sumf_zero; reflexivity|]. rewrite rsum_cons, <- IH, <- sumf_plus. reflexivity.
Qed.
Lemma sumf_delta n k g : (k < n)%nat -> sumf n (fun i => delta i k * g i) = g k.
Proof.
  intros H. rewrite (sumf_ext _ _ (fun i => if (i =? k)%nat then g k else 0)); [apply sumf_single, H|].
  intros i _. unfold delta. destruct (Nat.eqb_spec i k) as [->|]; ring.
Qed.
Lemma gs_inner V D directed backward x edges y : gs_ok V edges = true ->
  inner V D (gs_run (flat_map (gs_edge D directed backward x) edges)) y =
  rsum (map (fun e => sumf D (fun d =>
     x (if backward then fst e else snd e) d * y (if backward then snd e else fst e) d +
     (if directed then 0 else x (if backward then snd e else fst e) d * y (if backward then fst e else snd e) d))) edges).
Proof.
  intros Hok. unfold inner.
  transitivity (sumf V (fun v => rsum (map (fun e => sumf D (fun d => at_v v d (gs_edge D directed backward x e) * y v d)) edges))).
  - apply sumf_ext. intros v _. rewrite <- sumf_rsum. apply sumf_ext. intros d _.
    rewrite gs_run_at, at_v_flat, Rmult_comm, <- rsum_map_scal. apply rsum_map_ext. intros; ring.
  - rewrite sumf_rsum. apply rsum_map_ext. intros e He. unfold gs_ok in Hok. rewrite forallb_forall in Hok. specialize (Hok e He).
    apply Bool.andb_true_iff in Hok as [H0 H1]. apply Nat.ltb_lt in H0, H1.
    rewrite sumf_comm. apply sumf_ext. intros d Hd.
    set (v0 := if backward then snd e else fst e). set (v1 := if backward then fst e else snd e).
    assert (L0 : (v0 < V)%nat) by (unfold v0; destruct backward; assumption).
    assert (L1 : (v1 < V)%nat) by (unfold v1; destruct backward; assumption).
    rewrite (sumf_ext _ _ (fun v => delta v v0 * (x v1 d * y v d) + delta v v1 * ((if directed then 0 else x v0 d) * y v d))).
    + rewrite sumf_plus, !sumf_delta by assumption. destruct directed; ring.
    + intros v _. rewrite at_v_edge by exact Hd. fold v0 v1. destruct directed; ring.
Qed.
Lemma gs_adjoint V D directed x y edges : gs_ok V edges = true ->
  exists fx bg, gather_scatter V D x edges directed false = Ok fx /\ gather_scatter V D y edges directed true = Ok bg /\
    inner V D fx y = inner V D x bg.
Proof.
  intros H. unfold gather_scatter. rewrite H. do 2 eexists. split; [reflexivity|]. split; [reflexivity|].
  rewrite gs_inner by exact H.
  transitivity (inner V D (gs_run (flat_map (gs_edge D directed true y) edges)) x).
  - rewrite gs_inner by exact H. apply rsum_map_ext. intros e _. apply sumf_ext. intros d _. destruct directed; ring.
  - unfold inner. apply sumf_ext. intros v _. apply sumf_ext. intros; ring.
Qed.
Lemma gs_schedule D directed backward x edges ws : Permutation ws (flat_map (gs_edge D directed backward x) edges) ->
  forall v d, gs_run ws v d = gs_run (flat_map (gs_edge D directed backward x) edges) v d.
Proof. intros P v d. rewrite !gs_run_at. apply at_v_perm, P. Qed.
(* what a vertex receives *)
Lemma gs_spec V D x edges directed : gs_ok V edges = true -> exists fx, gather_scatter V D x edges directed false = Ok fx /\
  forall v d, (d < D)%nat -> fx v d =
    rsum (map (fun e => if (fst e =? v)%nat then x (snd e) d else 0) edges) +
    (if directed then 0 else rsum (map (fun e => if (snd e =? v)%nat then x (fst e) d else 0) edges)).
Proof.
  intros H. unfold gather_scatter. rewrite H. eexists. split; [reflexivity|]. intros v d Hd.
  rewrite gs_run_at, at_v_flat.
  rewrite (rsum_map_ext _ (fun e => (if (fst e =? v)%nat then x (snd e) d else 0) + (if directed then 0 else if (snd e =? v)%nat then x (fst e) d else 0))).
  - rewrite rsum_map_plus. destruct directed; [rewrite (rsum_map_zero (fun _ => 0)) by reflexivity|]; reflexivity.
  - intros e _. rewrite at_v_edge by exact Hd. unfold delta. rewrite (Nat.eqb_sym v (fst e)), (Nat.eqb_sym v (snd e)).
    destruct (fst e =? v)%nat, (snd e =? v)%nat, directed; ring.
Qed.
Lemma combine_enum (edges : list (nat * nat)) (g h : nat * nat -> nat) (x : nat -> R) v : forall pre,
  rsum (map (fun ei => if (snd ei =? v)%nat then x (nth (fst ei) (pre ++ map g edges) 0%nat) else 0) (combine (seq (length pre) (length (map h edges))) (map h edges))) =
  rsum (map (fun e => if (h e =? v)%nat then x (g e) else 0) edges).
Proof.
  induction edges as [|e edges IH]; intros pre; [reflexivity|]. cbn [map length seq combine]. rewrite !rsum_cons. cbn [fst snd].
  f_equal.
  - rewrite app_nth2, Nat.sub_diag by lia. reflexivity.
  - rewrite <- (IH (pre ++ [g e])). rewrite app_length. cbn [length]. rewrite Nat.add_1_r, <- app_assoc. reflexivity.
Qed.
Lemma gs_python_eq V D x edges directed : gs_ok V edges = true ->
  exists fx px, gather_scatter V D x edges directed false = Ok fx /\ gs_python V D x edges directed = Ok px /\
    forall v d, (d < D)%nat -> fx v d = px v d.
Proof.
  intros H. destruct (gs_spec V D x edges directed H) as [fx [E1 E2]]. unfold gs_python. rewrite H.
  do 2 eexists. split; [exact E1|]. split; [reflexivity|]. intros v d Hd. rewrite E2 by exact Hd.
  assert (A := combine_enum edges snd fst (fun n => x n d) v []). assert (B := combine_enum edges fst snd (fun n => x n d) v []). cbn [app length] in A, B.
  destruct directed; unfold scatter_add; destruct (Nat.ltb_spec d D); try lia; rewrite A; try rewrite B; ring.
Qed.
(* renaming vertices *)
Lemma gs_equivariant V D x edges directed pi : gs_ok V edges = true ->
  (forall v, (v < V)%nat -> (pi v < V)%nat) -> (forall v w, (v < V)%nat -> (w < V)%nat -> pi v = pi w -> v = w) ->
  exists fx gx, gather_scatter V D (fun v d => x (pi v) d) edges directed false = Ok fx /\
    gather_scatter V D x (map (fun e => (pi (fst e), pi (snd e))) edges) directed false = Ok gx /\
    forall v d, (v < V)%nat -> (d < D)%nat -> gx (pi v) d = fx v d.
Proof.
  intros H Hr Hi.
  assert (H' : gs_ok V (map (fun e => (pi (fst e), pi (snd e))) edges) = true).
  { unfold gs_ok in *. rewrite forallb_forall in *. intros e He. apply in_map_iff in He as [e' [<- He]]. specialize (H e' He).
    apply Bool.andb_true_iff in H as [H0 H1]. apply Nat.ltb_lt in H0, H1. cbn. apply Bool.andb_true_iff. split; apply Nat.ltb_lt; auto. }
  destruct (gs_spec V D (fun v d => x (pi v) d) edges directed H) as [fx [E1 E2]].
  destruct (gs_spec V D x _ directed H') as [gx [E3 E4]]. exists fx, gx. split; [exact E1|]. split; [exact E3|].
  intros v d Hv Hd. rewrite E2, E4 by exact Hd. rewrite !map_map. cbn [fst snd].
  assert (K : forall e, In e edges -> (pi (fst e) =? pi v)%nat = (fst e =? v)%nat /\ (pi (snd e) =? pi v)%nat = (snd e =? v)%nat).
  { intros e He. unfold gs_ok in H. rewrite forallb_forall in H. specialize (H e He). apply Bool.andb_true_iff in H as [H0 H1]. apply Nat.ltb_lt in H0, H1.
    assert (G : forall u, (u < V)%nat -> (pi u =? pi v)%nat = (u =? v)%nat).
    { intros u Hu. destruct (Nat.eqb_spec (pi u) (pi v)) as [E|E]; symmetry; [apply Nat.eqb_eq; auto|apply Nat.eqb_neq; congruence]. }
    split; apply G; assumption. }
  f_equal; [|destruct directed; [reflexivity|]]; apply rsum_map_ext; intros e He; destruct (K e He) as [K1 K2]; rewrite ?K1, ?K2; reflexivity.
Qed.

(* ------------------------------------------------------------------ interpolation *)
Definition iat (x : icell) (ws : list (icell * R)) : R := rsum (map (fun w => if icell_eqb x (fst w) then snd w else 0) ws).
Lemma irun_acc ws : forall g x,
  fold_left (fun g w => fun x => if icell_eqb x (fst w) then g x + snd w else g x) ws g x = g x + iat x ws.
Proof.
  induction ws as [|w ws IH]; intros g x; cbn [fold_left]; [unfold iat; cbn; ring|].
  rewrite IH. unfold iat. cbn [map]. rewrite rsum_cons. destruct (icell_eqb x (fst w)); ring.
Qed.
Lemma irun_total (pair : nat * nat -> list (icell * R)) P D ws x : Permutation ws (flat_map pair (list_prod (seq 0 P) (seq 0 D))) ->
  irun ws x = sumf P (fun p => sumf D (fun d => iat x (pair (p, d)))).
Proof.
  intros HP. unfold irun. rewrite irun_acc, Rplus_0_l.
  transitivity (iat x (flat_map pair (list_prod (seq 0 P) (seq 0 D)))); [apply rsum_perm, Permutation_map, HP|].
  rewrite <- (sum_prod (fun pd => iat x (pair pd)) P D). generalize (list_prod (seq 0 P) (seq 0 D)). intros l. induction l as [|a l IH]; [reflexivity|].
  cbn [flat_map map]. unfold iat in *. rewrite map_app, rsum_app, rsum_cons, IH. reflexivity.
Qed.
Lemma interp_cuda_sum attr bary face p d :
  interp_cuda attr bary face p d = if (face p <? 0)%Z then 0 else
    bary p 0%nat * attr (Z.to_nat (face p)) 0%nat d + bary p 1%nat * attr (Z.to_nat (face p)) 1%nat d + bary p 2%nat * attr (Z.to_nat (face p)) 2%nat d.
Proof. unfold interp_cuda. cbn. destruct (face p <? 0)%Z; ring. Qed.
Lemma interp_python_eq F attr bary face p d : (0 < F)%nat -> (face p < Z.of_nat F)%Z ->
  interp_python F attr bary face p d = Ok (interp_cuda attr bary face p d).
Proof.
  intros HF H. unfold interp_python. rewrite interp_cuda_sum. destruct (Z.ltb_spec (face p) 0).
  - destruct (Nat.ltb_spec 0 F); [reflexivity|lia].
  - destruct (Nat.ltb_spec (Z.to_nat (face p)) F); [|lia]. f_equal. unfold sumf. cbn. ring.
Qed.
Lemma set3_deriv g i j k a b c x : derivable_pt_lim (fun t => set3 g i j k t a b c) x (if ((a =? i) && (b =? j) && (c =? k))%nat then 1 else 0).
Proof. unfold set3. destruct ((a =? i) && (b =? j) && (c =? k))%nat; [apply deriv_id|apply deriv_const]. Qed.
Lemma set2_deriv g i j a b x : derivable_pt_lim (fun t => set2 g i j t a b) x (if ((a =? i) && (b =? j))%nat then 1 else 0).
Proof. unfold set2. destruct ((a =? i) && (b =? j))%nat; [apply deriv_id|apply deriv_const]. Qed.
Lemma interp_attr_grad P D attr bary face go ws f i d :
  Permutation ws (flat_map (interp_writes attr bary face go) (list_prod (seq 0 P) (seq 0 D))) -> (i < 3)%nat ->
  derivable_pt_lim (fun t => loss P D go (fun p c => interp_cuda (set3 attr f i d t) bary face p c)) (attr f i d) (irun ws (IA f i d)).
Proof.
  intros HP Hi. rewrite (irun_total _ _ _ _ _ HP).
  eapply deriv_val; [|apply (deriv_loss P D go (fun p c t => interp_cuda (set3 attr f i d t) bary face p c)
    (fun p c => if (face p <? 0)%Z then 0 else if ((Z.to_nat (face p) =? f) && (c =? d))%nat then bary p i else 0))].
  - apply sumf_ext. intros p _. apply sumf_ext. intros c _. unfold interp_writes. destruct (face p <? 0)%Z; [unfold iat; cbn; ring|].
    unfold iat. cbn. rewrite (Nat.eqb_sym f), (Nat.eqb_sym d c).
    destruct (Z.to_nat (face p) =? f)%nat, (c =? d)%nat; destruct i as [|[|[|i]]]; try lia; cbn; ring.
  - intros p c _ _. eapply deriv_ext; [intros t; apply interp_cuda_sum|]. destruct (face p <? 0)%Z; [apply deriv_const|].
    eapply deriv_val; [|apply (deriv_plus (fun t => bary p 0%nat * set3 attr f i d t (Z.to_nat (face p)) 0%nat c + bary p 1%nat * set3 attr f i d t (Z.to_nat (face p)) 1%nat c)
      (fun t => bary p 2%nat * set3 attr f i d t (Z.to_nat (face p)) 2%nat c));
      [apply (deriv_plus (fun t => bary p 0%nat * set3 attr f i d t (Z.to_nat (face p)) 0%nat c) (fun t => bary p 1%nat * set3 attr f i d t (Z.to_nat (face p)) 1%nat c));
       apply deriv_scal, set3_deriv|apply deriv_scal, set3_deriv]].
    destruct (Z.to_nat (face p) =? f)%nat, (c =? d)%nat; destruct i as [|[|[|i]]]; try lia; cbn; ring.
Qed.
Lemma interp_bary_grad P D attr bary face go ws p i :
  Permutation ws (flat_map (interp_writes attr bary face go) (list_prod (seq 0 P) (seq 0 D))) -> (i < 3)%nat ->
  is_partial (fun bary => loss P D go (fun p c => interp_cuda attr bary face p c)) bary p i (irun ws (IB p i)).
Proof.
  intros HP Hi. unfold is_partial. rewrite (irun_total _ _ _ _ _ HP).
  eapply deriv_val; [|apply (deriv_loss P D go (fun q c t => interp_cuda attr (set2 bary p i t) face q c)
    (fun q c => if (face q <? 0)%Z then 0 else if (q =? p)%nat then attr (Z.to_nat (face q)) i c else 0))].
  - apply sumf_ext. intros q _. apply sumf_ext. intros c _. unfold interp_writes. destruct (face q <? 0)%Z; [unfold iat; cbn; ring|].
    unfold iat. cbn. rewrite (Nat.eqb_sym p).
    destruct (q =? p)%nat; destruct i as [|[|[|i]]]; try lia; cbn; ring.
  - intros q c _ _. eapply deriv_ext; [intros t; apply interp_cuda_sum|]. destruct (face q <? 0)%Z; [apply deriv_const|].
    assert (G : forall j, derivable_pt_lim (fun t => set2 bary p i t q j * attr (Z.to_nat (face q)) j c) (bary p i) (attr (Z.to_nat (face q)) j c * (if ((q =? p) && (j =? i))%nat then 1 else 0))).
    { intros j. eapply deriv_ext; [intros t; rewrite Rmult_comm; reflexivity|]. apply deriv_scal, set2_deriv. }
    eapply deriv_val; [|apply (deriv_plus (fun t => set2 bary p i t q 0%nat * attr (Z.to_nat (face q)) 0%nat c + set2 bary p i t q 1%nat * attr (Z.to_nat (face q)) 1%nat c)
      (fun t => set2 bary p i t q 2%nat * attr (Z.to_nat (face q)) 2%nat c));
      [apply (deriv_plus (fun t => set2 bary p i t q 0%nat * attr (Z.to_nat (face q)) 0%nat c) (fun t => set2 bary p i t q 1%nat * attr (Z.to_nat (face q)) 1%nat c)); apply G|apply G]].
    destruct (q =? p)%nat; destruct i as [|[|[|i]]]; try lia; cbn; ring.
Qed.
Lemma inner_loss V D g out : loss V D g out = inner V D out g.
Proof. unfold loss, inner. apply sumf_ext. intros. apply sumf_ext. intros. ring. Qed.
Lemma gs_gradient V D directed x go edges : gs_ok V edges = true ->
  exists bg, gather_scatter V D go edges directed true = Ok bg /\
    forall v d, (v < V)%nat -> (d < D)%nat ->
      is_partial (fun x => loss V D go (gs_run (flat_map (gs_edge D directed false x) edges))) x v d (bg v d).
Proof.
  intros H. destruct (gs_adjoint V D directed x go edges H) as [f0 [bg [E0 [E1 _]]]]. exists bg. split; [exact E1|].
  intros v d Hv Hd. unfold is_partial.
  eapply deriv_ext.
  - intros t. rewrite inner_loss. destruct (gs_adjoint V D directed (set2 x v d t) go edges H) as [f1 [bg1 [F0 [F1 F2]]]].
    unfold gather_scatter in F0. rewrite H in F0. injection F0 as <-. rewrite E1 in F1. injection F1 as <-. exact F2.
  - eapply deriv_val; [|apply (deriv_sumf V (fun a t => sumf D (fun b => set2 x v d t a b * bg a b)) (fun a => sumf D (fun b => bg a b * (if ((a =? v) && (b =? d))%nat then 1 else 0))))].
    + rewrite (sumf_ext _ _ (fun a => if (a =? v)%nat then bg v d else 0)); [apply sumf_single, Hv|].
      intros a _. destruct (Nat.eqb_spec a v) as [->|].
      * rewrite (sumf_ext _ _ (fun b => if (b =? d)%nat then bg v d else 0)); [apply sumf_single, Hd|].
        intros b _. destruct (Nat.eqb_spec b d) as [->|]; cbn [andb]; ring.
      * apply sumf_zero. intros b _. cbn [andb]. ring.
    + intros a _. apply (deriv_sumf D (fun b t => set2 x v d t a b * bg a b)). intros b _.
      eapply deriv_ext; [intros t; rewrite Rmult_comm; reflexivity|]. apply deriv_scal, set2_deriv.
Qed.
Lemma interp_affine attr bary face pos A c p d : (0 <= face p)%Z ->
  bary p 0%nat + bary p 1%nat + bary p 2%nat = 1 ->
  (forall i, (i < 3)%nat -> attr (Z.to_nat (face p)) i d = sumf 3 (fun k => A k * pos (Z.to_nat (face p)) i k) + c) ->
  interp_cuda attr bary face p d = sumf 3 (fun k => A k * sumf 3 (fun i => bary p i * pos (Z.to_nat (face p)) i k)) + c.
Proof.
  intros Hf Hb Ha. rewrite interp_cuda_sum. destruct (Z.ltb_spec (face p) 0); [lia|]. rewrite !Ha by lia.
  unfold sumf. cbn. replace (bary p 2%nat) with (1 - bary p 0%nat - bary p 1%nat) by lra. ring.
Qed.

Lemma gs_ok_iff V edges : gs_ok V edges = true <-> edges_in_range V edges.
Proof.
  unfold gs_ok, edges_in_range. rewrite forallb_forall. split.
  - intros H a b Hin. specialize (H _ Hin). apply Bool.andb_true_iff in H as [H0 H1]. apply Nat.ltb_lt in H0, H1. split; assumption.
  - intros H [a b] Hin. destruct (H a b Hin). apply Bool.andb_true_iff. split; apply Nat.ltb_lt; assumption.
Qed.
Lemma linear_relabel W b Din x pi v o : linear W b Din (fun v d => x (pi v) d) v o = linear W b Din x (pi v) o.
Proof. reflexivity. Qed.
Lemma graph_conv_spec (V Din Dout : nat) W0 W1 b0 b1 x edges directed : gs_ok V edges = true ->
  exists out, (graph_conv V Din Dout W0 W1 b0 b1 x edges directed = Ok out) /\
  forall v o, (o < Dout)%nat -> out v o = linear W0 b0 Din x v o + out_sum edges (linear W1 b1 Din x) v o
     + (if directed then 0 else in_sum edges (linear W1 b1 Din x) v o).
Proof.
  intros H. unfold graph_conv. destruct (gs_spec V Dout (linear W1 b1 Din x) edges directed H) as [fx [E1 E2]]. rewrite E1. cbn [rbind].
  eexists. split; [reflexivity|]. intros v o Ho. cbv beta. rewrite (E2 v o Ho). unfold out_sum, in_sum. ring.
Qed.
