From Verif Require Import Base RBase Composite CompositeSpec.
Local Open Scope R_scope.

(* ------------------------------------------------------------------ front to back *)
Fixpoint over (L : list (R * R)) : R :=
  match L with [] => 0 | (a, f) :: L' => a * f + (1 - a) * over L' end.
Fixpoint trans (L : list (R * R)) : R :=
  match L with [] => 1 | (a, _) :: L' => (1 - a) * trans L' end.

Lemma layers_cons f n a row : layers f ((n, a) :: row) = (if (n <? 0)%Z then [] else [(a, f (Z.to_nat n))]) ++ layers f row.
Proof. reflexivity. Qed.
Lemma ac_fold f row : forall r cum, fold_left (ac_step f) row (r, cum) = (r + cum * over (layers f row), cum * trans (layers f row)).
Proof.
  induction row as [|[n a] row IH]; intros r cum; cbn [fold_left].
  - cbn. f_equal; ring.
  - rewrite layers_cons. unfold ac_step at 2. destruct (n <? 0)%Z; rewrite IH; cbn [app over trans]; f_equal; ring.
Qed.
Lemma ac_fwd_over f row : ac_fwd f row = over (layers f row).
Proof. unfold ac_fwd. rewrite ac_fold. cbn. ring. Qed.

Lemma over_app L1 L2 : over (L1 ++ L2) = over L1 + trans L1 * over L2.
Proof. induction L1 as [|[a f] L IH]; cbn; [ring|]. rewrite IH. ring. Qed.
Lemma trans_app L1 L2 : trans (L1 ++ L2) = trans L1 * trans L2.
Proof. induction L1 as [|[a f] L IH]; cbn; [ring|]. rewrite IH. ring. Qed.
Lemma rprod_shift a f L k :
  rprod (map (fun j => 1 - alpha_at ((a, f) :: L) j) (seq 0 (S k))) = (1 - a) * rprod (map (fun j => 1 - alpha_at L j) (seq 0 k)).
Proof. cbn [seq map rprod fold_right]. rewrite <- seq_shift, map_map. reflexivity. Qed.
Lemma over_weight_S a f L k : over_weight ((a, f) :: L) (S k) = (1 - a) * over_weight L k.
Proof. unfold over_weight. rewrite rprod_shift. unfold alpha_at at 1 3. cbn [nth]. ring. Qed.
Lemma sumf_shift n g : sumf (S n) g = g O + sumf n (fun i => g (S i)).
Proof. unfold sumf. cbn [seq map]. rewrite rsum_cons, <- seq_shift, map_map. reflexivity. Qed.
Lemma over_sum L : over L = sumf (length L) (fun k => over_weight L k * feat_at L k).
Proof.
  induction L as [|[a f] L IH]; [reflexivity|]. cbn [over length]. rewrite sumf_shift, IH, <- sumf_scal. f_equal.
  - unfold over_weight, feat_at, alpha_at. cbn. ring.
  - apply sumf_ext. intros k _. rewrite over_weight_S. unfold feat_at. cbn [nth]. ring.
Qed.
Lemma trans_sum L : 1 - sumf (length L) (over_weight L) = rprod (map (fun x => 1 - fst x) L).
Proof.
  induction L as [|[a f] L IH]; [cbn; unfold sumf; cbn; ring|]. cbn [length map rprod fold_right fst].
  change (fold_right Rmult 1 (map (fun x => 1 - fst x) L)) with (rprod (map (fun x => 1 - fst x) L)).
  rewrite <- IH, sumf_shift. rewrite (sumf_ext _ _ (fun k => (1 - a) * over_weight L k)) by (intros; apply over_weight_S).
  rewrite sumf_scal. unfold over_weight at 1, alpha_at at 1. cbn. ring.
Qed.
Lemma over_weight_nonneg L k : (forall x, In x L -> 0 <= fst x <= 1) -> 0 <= over_weight L k.
Proof.
  intros H. assert (HA : forall j, 0 <= alpha_at L j <= 1).
  { intros j. unfold alpha_at. destruct (nth_in_or_default j L (0, 0)) as [E| ->]; [apply H, E|cbn; lra]. }
  unfold over_weight. apply Rmult_le_pos; [apply HA|]. generalize (seq 0 k). intros l.
  induction l as [|j l IH]; cbn; [lra|]. apply Rmult_le_pos; [specialize (HA j); lra|apply IH].
Qed.
Lemma rprod_unit {A} (g : A -> R) l : (forall x, In x l -> 0 <= g x <= 1) -> 0 <= rprod (map g l) <= 1.
Proof.
  induction l as [|x l IH]; intros H; cbn; [lra|]. assert (H1 := H x (or_introl eq_refl)).
  specialize (IH (fun y Hy => H y (or_intror Hy))). unfold rprod in IH. nra.
Qed.

(* ------------------------------------------------------------------ additions *)
Definition at_cell (x : cell) (ws : list (cell * R)) : R := rsum (map (fun w => if cell_eqb x (fst w) then snd w else 0) ws).
Lemma run_acc ws : forall g x,
  fold_left (fun g w => fun x => if cell_eqb x (fst w) then g x + snd w else g x) ws g x = g x + at_cell x ws.
Proof.
  induction ws as [|w ws IH]; intros g x; cbn [fold_left]; [unfold at_cell; cbn; ring|].
  rewrite IH. unfold at_cell. cbn [map]. rewrite rsum_cons. destruct (cell_eqb x (fst w)); ring.
Qed.
Lemma run_at ws x : run ws x = at_cell x ws.
Proof. unfold run. rewrite run_acc. ring. Qed.
Lemma at_cell_perm x ws ws' : Permutation ws ws' -> at_cell x ws = at_cell x ws'.
Proof. intros P. unfold at_cell. apply rsum_perm, Permutation_map, P. Qed.
Lemma at_cell_app x a b : at_cell x (a ++ b) = at_cell x a + at_cell x b.
Proof. unfold at_cell. rewrite map_app, rsum_app. reflexivity. Qed.
Lemma at_cell_cons x w b : at_cell x (w :: b) = (if cell_eqb x (fst w) then snd w else 0) + at_cell x b.
Proof. reflexivity. Qed.
Lemma at_cell_flat {A} x (g : A -> list (cell * R)) l : at_cell x (flat_map g l) = rsum (map (fun a => at_cell x (g a)) l).
Proof. induction l as [|a l IH]; [reflexivity|]. cbn [flat_map map]. rewrite at_cell_app, rsum_cons, IH. reflexivity. Qed.
Lemma sum_prod (g : nat * nat -> R) P C : rsum (map g (list_prod (seq 0 P) (seq 0 C))) = sumf P (fun p => sumf C (fun c => g (p, c))).
Proof.
  unfold sumf. generalize (seq 0 P). intros l. induction l as [|p l IH]; [reflexivity|]. cbn [list_prod map].
  rewrite map_app, rsum_app, rsum_cons, IH, map_map. reflexivity.
Qed.
Lemma total_writes pair P C ws x : Permutation ws (flat_map pair (list_prod (seq 0 P) (seq 0 C))) ->
  run ws x = sumf P (fun p => sumf C (fun c => at_cell x (pair (p, c)))).
Proof. intros HP. rewrite run_at, (at_cell_perm _ _ _ HP), at_cell_flat, sum_prod. reflexivity. Qed.

Lemma NoDup_app_intro {A} (l m : list A) : NoDup l -> NoDup m -> (forall x, In x l -> In x m -> False) -> NoDup (l ++ m).
Proof.
  intros Hl Hm H. induction Hl as [|x l Hx Hl IH]; [exact Hm|]. cbn. constructor.
  - rewrite in_app_iff. intros [H1|H1]; [contradiction|]. apply (H x); [left; reflexivity|exact H1].
  - apply IH. intros y H1 H2. apply (H y); [right; exact H1|exact H2].
Qed.
Lemma list_prod_nodup {A B} (l : list A) (m : list B) : NoDup l -> NoDup m -> NoDup (list_prod l m).
Proof.
  intros Hl Hm. induction Hl as [|a l Ha Hl IH]; cbn; [constructor|].
  apply NoDup_app_intro.
  - apply FinFun.Injective_map_NoDup; [intros x y [= E]; exact E|exact Hm].
  - exact IH.
  - intros [x y] H1 H2. apply in_map_iff in H1 as [z [[= <- <-] _]]. apply in_prod_iff in H2 as [H2 _]. contradiction.
Qed.
Lemma cpu_pairs_perm B C S : Permutation (cpu_pairs B C S) (list_prod (seq 0 (B * S)) (seq 0 C)).
Proof.
  unfold cpu_pairs. induction B as [|B IH].
  - reflexivity.
  - rewrite seq_S, flat_map_app. cbn [flat_map]. rewrite app_nil_r. cbn [Nat.mul].
    replace (S + B * S)%nat with (B * S + S)%nat by lia. rewrite seq_app.
    assert (E : forall a b : list nat, list_prod (a ++ b) (seq 0 C) = list_prod a (seq 0 C) ++ list_prod b (seq 0 C)).
    { intros a b. induction a as [|x a IHa]; [reflexivity|]. cbn. rewrite IHa, app_assoc. reflexivity. }
    rewrite E. apply Permutation_app; [exact IH|]. cbn [Nat.add].
    apply NoDup_Permutation.
    + generalize (seq_NoDup C 0). generalize (seq 0 C). intros l Hl. induction Hl as [|c l Hc Hl IHl]; cbn; [constructor|].
      apply NoDup_app_intro; [|exact IHl|].
      * apply FinFun.Injective_map_NoDup; [intros x y [= E1]; lia|apply seq_NoDup].
      * intros [x y] H1 H2. apply in_map_iff in H1 as [z [[= <- <-] _]]. apply in_flat_map in H2 as [c' [Hc' H2]].
        apply in_map_iff in H2 as [z' [[= _ <-] _]]. contradiction.
    + apply list_prod_nodup; apply seq_NoDup.
    + intros [p c]. rewrite in_prod_iff, !in_seq, in_flat_map. split.
      * intros [c' [Hc H]]. apply in_map_iff in H as [s [[= <- <-] Hs]]. apply in_seq in Hs, Hc. lia.
      * intros [Hp Hc]. exists c. split; [apply in_seq; lia|]. apply in_map_iff. exists (p - B * S)%nat.
        split; [f_equal; lia|apply in_seq; lia].
Qed.
Lemma flat_perm {A B} (g : A -> list B) l l' : Permutation l l' -> Permutation (flat_map g l) (flat_map g l').
Proof. intros H. apply Permutation_flat_map. exact H. Qed.

(* ------------------------------------------------------------------ losses *)
Lemma deriv_loss P C go (out : nat -> nat -> R -> R) d x :
  (forall p c, (p < P)%nat -> (c < C)%nat -> derivable_pt_lim (out p c) x (d p c)) ->
  derivable_pt_lim (fun t => loss P C go (fun p c => out p c t)) x (sumf P (fun p => sumf C (fun c => go p c * d p c))).
Proof.
  intros H. unfold loss. apply (deriv_sumf P (fun p t => sumf C (fun c => go p c * out p c t))). intros p Hp.
  apply (deriv_sumf C (fun c t => go p c * out p c t)). intros c Hc. apply deriv_scal. auto.
Qed.
Lemma backward_partial pair P C go (out : nat -> nat -> R -> R) d x g ws y :
  Permutation ws (flat_map pair (list_prod (seq 0 P) (seq 0 C))) ->
  (forall p c, (p < P)%nat -> (c < C)%nat -> at_cell y (pair (p, c)) = go p c * d p c) ->
  (forall p c, (p < P)%nat -> (c < C)%nat -> derivable_pt_lim (out p c) x (d p c)) ->
  (forall t, g t = loss P C go (fun p c => out p c t)) ->
  derivable_pt_lim g x (run ws y).
Proof.
  intros HP Hw Hd Hg. eapply deriv_ext; [exact Hg|].
  rewrite (total_writes _ _ _ _ _ HP). eapply deriv_val; [|apply deriv_loss; exact Hd].
  apply sumf_ext. intros p Hp. apply sumf_ext. intros c Hc. symmetry. apply Hw; assumption.
Qed.

(* ------------------------------------------------------------------ features *)
Definition fset (f : nat -> R) (n : nat) (t : R) : nat -> R := fun m => if (m =? n)%nat then t else f m.
Lemma set2_same g i j t b : set2 g i j t i b = fset (g i) j t b.
Proof. unfold set2, fset. rewrite Nat.eqb_refl. reflexivity. Qed.
Lemma set2_other g i j t a b : a <> i -> set2 g i j t a b = g a b.
Proof. intros H. unfold set2. destruct (Nat.eqb_spec a i); [contradiction|reflexivity]. Qed.
Lemma layers_ext f g row : (forall n, f n = g n) -> layers f row = layers g row.
Proof. intros H. unfold layers. apply flat_map_ext. intros [n a]. cbn. rewrite H. reflexivity. Qed.
Lemma fset_deriv f n m : derivable_pt_lim (fun t => fset f n t m) (f n) (if (m =? n)%nat then 1 else 0).
Proof. unfold fset. destruct (m =? n)%nat; [apply deriv_id|apply deriv_const]. Qed.

Fixpoint gcoef (row : list slot) (n : nat) : R :=
  match row with
  | [] => 0
  | (m, a) :: row' => if (m <? 0)%Z then gcoef row' n else a * (if (Z.to_nat m =? n)%nat then 1 else 0) + (1 - a) * gcoef row' n
  end.
Lemma over_feat f n row : derivable_pt_lim (fun t => over (layers (fset f n t) row)) (f n) (gcoef row n).
Proof.
  induction row as [|[m a] row IH]; [exact (deriv_const 0 _)|]. cbn [gcoef].
  eapply deriv_ext; [intros t; rewrite layers_cons; reflexivity|]. destruct (m <? 0)%Z; cbn [app over]; [exact IH|].
  apply (deriv_plus (fun t => a * fset f n t (Z.to_nat m)) (fun t => (1 - a) * over (layers (fset f n t) row))).
  - apply deriv_scal, fset_deriv.
  - apply deriv_scal, IH.
Qed.
Lemma at_map_ga x p (l : list (nat * R)) (v : nat * R -> R) :
  at_cell x (map (fun ta => (GA p (fst ta), v ta)) l) = rsum (map (fun ta => if cell_eqb x (GA p (fst ta)) then v ta else 0) l).
Proof. unfold at_cell. rewrite map_map. reflexivity. Qed.
Lemma ac_writes_gf eps p c go f row c' n : forall k cum nearer,
  at_cell (GF c' n) (ac_writes eps p c go f row k cum nearer) = if (c' =? c)%nat then go * (cum * gcoef row n) else 0.
Proof.
  induction row as [|[m a] row IH]; intros k cum nearer; cbn [ac_writes gcoef].
  - unfold at_cell. cbn. destruct (c' =? c)%nat; ring.
  - destruct (m <? 0)%Z; [apply IH|]. rewrite !at_cell_cons, at_cell_app, IH, at_map_ga.
    rewrite rsum_map_zero by reflexivity. cbn [cell_eqb fst snd].
    destruct (c' =? c)%nat; cbn [andb]; [|ring]. rewrite (Nat.eqb_sym n). destruct (Z.to_nat m =? n)%nat; ring.
Qed.

(* ------------------------------------------------------------------ alphas *)
Fixpoint aset (row : list slot) (k : nat) (t : R) : list slot :=
  match row, k with
  | [], _ => []
  | (n, _) :: row', O => (n, t) :: row'
  | s :: row', S k' => s :: aset row' k' t
  end.
Lemma row_same_from idx al p k t a K :
  map (fun j => (idx p j, set2 al p (a + k) t p j)) (seq a K) = aset (map (fun j => (idx p j, al p j)) (seq a K)) k t.
Proof.
  revert a k. induction K as [|K IH]; intros a k; [destruct k; reflexivity|]. destruct k as [|k]; cbn [seq map aset].
  - rewrite Nat.add_0_r. f_equal.
    + unfold set2. rewrite !Nat.eqb_refl. reflexivity.
    + apply map_ext_in. intros j Hj. apply in_seq in Hj. unfold set2. rewrite Nat.eqb_refl. destruct (Nat.eqb_spec j a); [lia|reflexivity].
  - apply f_equal2.
    + unfold set2. rewrite Nat.eqb_refl. destruct (Nat.eqb_spec a (a + S k)); [lia|reflexivity].
    + replace (a + S k)%nat with (S a + k)%nat by lia. apply IH.
Qed.
Lemma row_same K idx al p k t : row_of K idx (set2 al p k t) p = aset (row_of K idx al p) k t.
Proof. exact (row_same_from idx al p k t 0 K). Qed.
Lemma row_other K idx al p q k t : q <> p -> row_of K idx (set2 al p k t) q = row_of K idx al q.
Proof. intros H. unfold row_of. apply map_ext. intros j. rewrite set2_other by exact H. reflexivity. Qed.
Lemma row_at K idx al p k : (k < K)%nat -> nth_error (row_of K idx al p) k = Some (idx p k, al p k).
Proof.
  intros H. unfold row_of. apply (map_nth_error (fun k => (idx p k, al p k))).
  rewrite (nth_error_nth' _ 0%nat) by (rewrite seq_length; exact H). rewrite seq_nth by exact H. reflexivity.
Qed.

Fixpoint dal (eps : R) (f : nat -> R) (row : list slot) (k : nat) : R :=
  match row, k with
  | [], _ => 0
  | (n, a) :: row', O => if (n <? 0)%Z then 0 else f (Z.to_nat n) - (1 - a) / (1 - a + eps) * over (layers f row')
  | (n, a) :: row', S k' => (if (n <? 0)%Z then 1 else 1 - a) * dal eps f row' k'
  end.
Fixpoint dtrue (f : nat -> R) (row : list slot) (k : nat) : R :=
  match row, k with
  | [], _ => 0
  | (n, a) :: row', O => if (n <? 0)%Z then 0 else f (Z.to_nat n) - over (layers f row')
  | (n, a) :: row', S k' => (if (n <? 0)%Z then 1 else 1 - a) * dtrue f row' k'
  end.
Lemma over_alpha f row : forall k x, derivable_pt_lim (fun t => over (layers f (aset row k t))) x (dtrue f row k).
Proof.
  induction row as [|[n a] row IH]; intros k x; [destruct k; exact (deriv_const 0 _)|]. destruct k as [|k]; cbn [aset dtrue].
  - eapply deriv_ext; [intros t; rewrite layers_cons; reflexivity|]. destruct (n <? 0)%Z; cbn [app over]; [apply deriv_const|].
    apply (deriv_affine _ (over (layers f row))). intros t. ring.
  - eapply deriv_ext; [intros t; rewrite layers_cons; reflexivity|]. destruct (n <? 0)%Z; cbn [app over].
    + rewrite Rmult_1_l. apply IH.
    + eapply deriv_val; [|apply (deriv_plus (fun _ => a * f (Z.to_nat n)) (fun t => (1 - a) * over (layers f (aset row k t))));
        [apply deriv_const|apply deriv_scal, IH]]. ring.
Qed.

(* additions made to an earlier slot t once it is among the nearer ones *)
Lemma ac_writes_later eps p c go f t at_ row : forall k cum near1 near2, (t < k)%nat ->
  (forall y, In y (near1 ++ near2) -> fst y <> t) ->
  at_cell (GA p t) (ac_writes eps p c go f row k cum (near1 ++ (t, at_) :: near2)) = - go / (1 - at_ + eps) * (cum * over (layers f row)).
Proof.
  induction row as [|[m a] row IH]; intros k cum near1 near2 Ht Hn; cbn [ac_writes].
  - unfold at_cell. cbn. ring.
  - rewrite layers_cons. destruct (m <? 0)%Z; [rewrite IH by (auto; lia); reflexivity|]. cbn [app over].
    rewrite !at_cell_cons, at_cell_app, at_map_ga.
    replace ((near1 ++ (t, at_) :: near2) ++ [(k, a)]) with (near1 ++ (t, at_) :: (near2 ++ [(k, a)])) by (rewrite <- app_assoc; reflexivity).
    rewrite IH; [|lia|].
    2:{ intros y Hy. rewrite app_assoc in Hy. apply in_app_iff in Hy as [Hy|[<-|[]]]; [apply Hn; exact Hy|cbn; lia]. }
    rewrite map_app, rsum_app. cbn [map]. rewrite rsum_cons.
    rewrite (rsum_map_zero _ near1), (rsum_map_zero _ near2).
    + cbn [cell_eqb fst snd]. rewrite !Nat.eqb_refl. destruct (Nat.eqb_spec t k); [lia|]. cbn [andb]. unfold Rdiv. ring.
    + intros y Hy. cbn [cell_eqb]. destruct (Nat.eqb_spec t (fst y)) as [E|E].
      * exfalso. apply (Hn y); [apply in_app_iff; right; exact Hy|auto].
      * rewrite Bool.andb_false_r. reflexivity.
    + intros y Hy. cbn [cell_eqb]. destruct (Nat.eqb_spec t (fst y)) as [E|E].
      * exfalso. apply (Hn y); [apply in_app_iff; left; exact Hy|auto].
      * rewrite Bool.andb_false_r. reflexivity.
Qed.
Lemma ac_writes_ga eps p c go f row : forall t k cum near,
  (forall y, In y near -> fst y <> (k + t)%nat) ->
  at_cell (GA p (k + t)) (ac_writes eps p c go f row k cum near) = go * (cum * dal eps f row t).
Proof.
  induction row as [|[m a] row IH]; intros t k cum near Hn; cbn [ac_writes].
  - unfold at_cell. destruct t; cbn; ring.
  - destruct t as [|t]; cbn [dal].
    + rewrite Nat.add_0_r in *. destruct (m <? 0)%Z.
      * clear IH. assert (G : forall row k', (k < k')%nat -> at_cell (GA p k) (ac_writes eps p c go f row k' cum near) = 0).
        { clear row. intros row.
          assert (G : forall k' cum near, (k < k')%nat -> (forall y, In y near -> fst y <> k) -> at_cell (GA p k) (ac_writes eps p c go f row k' cum near) = 0).
          { clear cum near Hn. induction row as [|[m' a'] row IH]; intros k' cum near Hk Hn; cbn [ac_writes]; [reflexivity|].
            destruct (m' <? 0)%Z; [apply IH; auto; lia|]. rewrite !at_cell_cons, at_cell_app, at_map_ga, IH; [|lia|].
            - rewrite rsum_map_zero.
              + cbn [cell_eqb fst snd]. destruct (Nat.eqb_spec k k'); [lia|]. rewrite Bool.andb_false_r. ring.
              + intros y Hy. cbn [cell_eqb]. destruct (Nat.eqb_spec k (fst y)) as [E|E]; [exfalso; apply (Hn y Hy); auto|].
                rewrite Bool.andb_false_r. reflexivity.
            - intros y Hy. apply in_app_iff in Hy as [Hy|[<-|[]]]; [apply Hn, Hy|cbn; lia]. }
          intros k' Hk. apply G; assumption. }
        rewrite G by lia. ring.
      * rewrite !at_cell_cons, at_cell_app, at_map_ga. rewrite (ac_writes_later eps p c go f k a row (S k) _ near []); [|lia|].
        2:{ rewrite app_nil_r. exact Hn. }
        rewrite rsum_map_zero.
        -- cbn [cell_eqb fst snd]. rewrite !Nat.eqb_refl. cbn [andb]. unfold Rdiv. ring.
        -- intros y Hy. cbn [cell_eqb]. destruct (Nat.eqb_spec k (fst y)) as [E|E]; [exfalso; apply (Hn y Hy); auto|].
           rewrite Bool.andb_false_r. reflexivity.
    + replace (k + S t)%nat with (S k + t)%nat in * by lia. destruct (m <? 0)%Z.
      * rewrite IH by exact Hn. ring.
      * rewrite !at_cell_cons, at_cell_app, at_map_ga, IH.
        -- rewrite rsum_map_zero.
           ++ cbn [cell_eqb fst snd]. destruct (Nat.eqb_spec (S k + t) k); [lia|]. rewrite Bool.andb_false_r. ring.
           ++ intros y Hy. cbn [cell_eqb]. destruct (Nat.eqb_spec (S k + t) (fst y)) as [E|E]; [exfalso; apply (Hn y Hy); auto|].
              rewrite Bool.andb_false_r. reflexivity.
        -- intros y Hy. apply in_app_iff in Hy as [Hy|[<-|[]]]; [apply Hn, Hy|cbn; lia].
Qed.
