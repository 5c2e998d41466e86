(* Broadcasting over a batch of points. *)
From Verif Require Import Base RBase Geom LinAlg Tens Lighting LightingSpec.
Local Open Scope R_scope.

Notation ones := (repeat 1%nat).
Notation zeros := (repeat 0%nat).
Definition pk (d i : nat) : nat := if (d =? 1)%nat then 0%nat else i.
Lemma pick_eq s ix : length s = length ix -> pick s ix = map (fun p => pk (fst p) (snd p)) (combine s ix).
Proof. intros H. unfold pick. rewrite H, Nat.sub_diag. reflexivity. Qed.
Lemma pick_app a b x y : length a = length x -> length b = length y -> pick (a ++ b) (x ++ y) = pick a x ++ pick b y.
Proof.
  intros Ha Hb. rewrite !pick_eq by (rewrite ?app_length; lia).
  revert x Ha; induction a as [|d a IH]; intros [|i x] Ha; try discriminate; [reflexivity|].
  cbn. f_equal. apply IH. cbn in Ha; lia.
Qed.
Lemma pick_cons d i s ix : length s = length ix -> pick (d :: s) (i :: ix) = pk d i :: pick s ix.
Proof. intros H. rewrite !pick_eq by (cbn; lia). reflexivity. Qed.
Lemma pick_full ix s : inside ix s -> pick s ix = ix.
Proof.
  intros H. assert (L : length s = length ix) by (symmetry; eapply Forall2_length; exact H).
  rewrite pick_eq by exact L. clear L. induction H as [|i d ix s Hi _ IH]; [reflexivity|].
  cbn. rewrite IH. unfold pk. destruct (Nat.eqb_spec d 1); f_equal; lia.
Qed.
Lemma pick_length s ix : length s = length ix -> length (pick s ix) = length ix.
Proof. intros H. rewrite pick_eq by exact H. rewrite map_length, combine_length. lia. Qed.
Lemma pick_ones k ix : length ix = k -> pick (ones k) ix = zeros k.
Proof.
  intros H. rewrite pick_eq by (rewrite repeat_length; lia). revert ix H.
  induction k as [|k IH]; intros [|i ix] H; try discriminate; [reflexivity|]. cbn. f_equal. apply IH. cbn in H; lia.
Qed.
Lemma pk_lt n i : (i < n)%nat -> pk n i = i.
Proof. intros H. unfold pk. destruct (Nat.eqb_spec n 1); lia. Qed.
Lemma pick_pick s ix : length s = length ix -> pick s (pick s ix) = pick s ix.
Proof.
  intros H. rewrite (pick_eq s (pick s ix)) by (rewrite pick_length; lia). rewrite pick_eq by exact H.
  revert ix H; induction s as [|d s IH]; intros [|i ix] H; try discriminate; [reflexivity|].
  cbn. rewrite IH by (cbn in H; lia). unfold pk. destruct (d =? 1)%nat; reflexivity.
Qed.

Lemma zip_app a1 b1 t1 a2 b2 t2 : zipdims a1 b1 = Ok t1 -> zipdims a2 b2 = Ok t2 ->
  zipdims (a1 ++ a2) (b1 ++ b2) = Ok (t1 ++ t2).
Proof.
  revert b1 t1; induction a1 as [|x a1 IH]; intros [|y b1] t1 H1 H2; try discriminate; cbn in H1.
  - injection H1 as <-. exact H2.
  - cbn. destruct (zipdims a1 b1) as [r|e] eqn:E; [|discriminate]. rewrite (IH _ _ E H2). cbn in H1 |- *.
    destruct (x =? y)%nat; [injection H1 as <-; reflexivity|].
    destruct (x =? 1)%nat; [injection H1 as <-; reflexivity|].
    destruct (y =? 1)%nat; [injection H1 as <-; reflexivity|discriminate].
Qed.
Lemma zip_same s : zipdims s s = Ok s.
Proof. induction s as [|d s IH]; [reflexivity|]. cbn. rewrite IH. cbn. rewrite Nat.eqb_refl. reflexivity. Qed.
Lemma zip_ones s : zipdims (ones (length s)) s = Ok s.
Proof.
  induction s as [|d s IH]; [reflexivity|]. cbn [length repeat zipdims]. rewrite IH. cbn [rbind].
  destruct (Nat.eqb_spec 1 d); [subst; reflexivity|]. reflexivity.
Qed.
Lemma zip_comm a b : zipdims a b = zipdims b a.
Proof.
  revert b; induction a as [|x a IH]; intros [|y b]; try reflexivity. cbn. rewrite IH.
  destruct (zipdims b a) as [r|e]; cbn; [|reflexivity]. rewrite (Nat.eqb_sym y x).
  destruct (Nat.eqb_spec x y); [subst; reflexivity|].
  destruct (Nat.eqb_spec x 1), (Nat.eqb_spec y 1); subst; try reflexivity; lia.
Qed.
Lemma zip_length a b t : zipdims a b = Ok t -> length a = length t /\ length b = length t.
Proof.
  revert b t; induction a as [|x a IH]; intros [|y b] t H; try discriminate; cbn in H.
  - injection H as <-. split; reflexivity.
  - destruct (zipdims a b) as [r|e] eqn:E; [|discriminate]. cbn in H. destruct (IH _ _ E) as [A B].
    destruct (x =? y)%nat; [injection H as <-; cbn; lia|].
    destruct (x =? 1)%nat; [injection H as <-; cbn; lia|].
    destruct (y =? 1)%nat; [injection H as <-; cbn; lia|discriminate].
Qed.
Lemma bop_zip f a b s : zipdims (shp a) (shp b) = Ok s ->
  bop f a b = Ok (T s (fun idx => f (get a (pick (shp a) idx)) (get b (pick (shp b) idx)))).
Proof.
  intros H. destruct (zip_length _ _ _ H) as [A B]. unfold bop, bshape, left_pad.
  replace (Nat.max (length (shp a)) (length (shp b)) - length (shp a))%nat with 0%nat by lia.
  replace (Nat.max (length (shp a)) (length (shp b)) - length (shp b))%nat with 0%nat by lia.
  cbn [repeat app]. rewrite H. reflexivity.
Qed.

(* ---- batches, possibly of size one in the intermediate dimensions ds' ---- *)
Definition wide (ds' : list nat) (t : tensor) (n : nat) (ds : list nat) (f : nat -> list nat -> vec3) : Prop :=
  shp t = n :: ds' ++ [3%nat] /\ length ds' = length ds /\
  forall i js, (i < n)%nat -> inside js ds -> row t (i :: pick ds' js) = f i js.
Definition wide1 (ds' tl : list nat) (t : tensor) (n : nat) (ds : list nat) (g : nat -> list nat -> R) : Prop :=
  shp t = n :: ds' ++ tl /\ length ds' = length ds /\
  forall i js, (i < n)%nat -> inside js ds -> get t (i :: pick ds' js ++ zeros (length tl)) = g i js.
Lemma inside_length js ds : inside js ds -> length js = length ds.
Proof. intros H. eapply Forall2_length. exact H. Qed.
Lemma vecs_wide t n ds f : vecs t n ds f <-> wide ds t n ds f.
Proof.
  unfold vecs, wide. split.
  - intros (S & H). split; [exact S|]. split; [reflexivity|]. intros i js Hi J. rewrite (pick_full _ _ J). apply H; assumption.
  - intros (S & _ & H). split; [exact S|]. intros i js Hi J. rewrite <- (H i js Hi J). rewrite (pick_full _ _ J). reflexivity.
Qed.
Definition map3 (op : R -> R -> R) (a b : vec3) : vec3 := V3 (op (x3 a) (x3 b)) (op (y3 a) (y3 b)) (op (z3 a) (z3 b)).
Definition all3 (x : R) : vec3 := V3 x x x.

Lemma pick_at n ds' tl i js c : length ds' = length js -> (i < n)%nat -> length tl = length c ->
  pick (n :: ds' ++ tl) (i :: js ++ c) = i :: pick ds' js ++ pick tl c.
Proof.
  intros L Hi Lc. rewrite pick_cons by (rewrite !app_length; lia). rewrite pick_app by assumption.
  rewrite pk_lt by exact Hi. reflexivity.
Qed.
Ltac at_ H L Hi := rewrite H; rewrite pick_at by (first [exact Hi | rewrite ?L; lia | reflexivity]).

Lemma bop_vv op a b n ds d1 d2 f g : wide d1 a n ds f -> wide d2 b n ds g -> zipdims d1 d2 = Ok ds ->
  exists r, bop op a b = Ok r /\ wide ds r n ds (fun i js => map3 op (f i js) (g i js)).
Proof.
  intros (Sa & La & Ha) (Sb & Lb & Hb) Z.
  assert (ZZ : zipdims (shp a) (shp b) = Ok (n :: ds ++ [3%nat])).
  { rewrite Sa, Sb. change (n :: ds ++ [3%nat]) with ([n] ++ ds ++ [3%nat]).
    change (n :: d1 ++ [3%nat]) with ([n] ++ d1 ++ [3%nat]). change (n :: d2 ++ [3%nat]) with ([n] ++ d2 ++ [3%nat]).
    apply zip_app; [apply zip_same|]. apply zip_app; [exact Z|reflexivity]. }
  rewrite (bop_zip _ _ _ _ ZZ). eexists. split; [reflexivity|]. split; [reflexivity|]. split; [reflexivity|].
  intros i js Hi J. pose proof (inside_length _ _ J) as LJ. rewrite (pick_full _ _ J).
  rewrite <- (Ha i js Hi J), <- (Hb i js Hi J). unfold row, map3. cbn [get x3 y3 z3]. rewrite Sa, Sb.
  rewrite <- !app_comm_cons. rewrite !pick_at by (first [exact Hi | reflexivity | lia]).
  reflexivity.
Qed.
Lemma bop_vs op a b n ds d1 d2 f g : wide d1 a n ds f -> wide1 d2 [1%nat] b n ds g -> zipdims d1 d2 = Ok ds ->
  exists r, bop op a b = Ok r /\ wide ds r n ds (fun i js => map3 op (f i js) (all3 (g i js))).
Proof.
  intros (Sa & La & Ha) (Sb & Lb & Hb) Z.
  assert (ZZ : zipdims (shp a) (shp b) = Ok (n :: ds ++ [3%nat])).
  { rewrite Sa, Sb. change (n :: ds ++ [3%nat]) with ([n] ++ ds ++ [3%nat]).
    change (n :: d1 ++ [3%nat]) with ([n] ++ d1 ++ [3%nat]). change (n :: d2 ++ [1%nat]) with ([n] ++ d2 ++ [1%nat]).
    apply zip_app; [apply zip_same|]. apply zip_app; [exact Z|reflexivity]. }
  rewrite (bop_zip _ _ _ _ ZZ). eexists. split; [reflexivity|]. split; [reflexivity|]. split; [reflexivity|].
  intros i js Hi J. pose proof (inside_length _ _ J) as LJ. rewrite (pick_full _ _ J).
  rewrite <- (Ha i js Hi J), <- (Hb i js Hi J). unfold row, map3, all3. cbn [get x3 y3 z3]. rewrite Sa, Sb.
  rewrite <- !app_comm_cons. rewrite !pick_at by (first [exact Hi | reflexivity | lia]).
  reflexivity.
Qed.
Lemma bop_sv op a b n ds d1 d2 f g : wide1 d1 [1%nat] a n ds g -> wide d2 b n ds f -> zipdims d1 d2 = Ok ds ->
  exists r, bop op a b = Ok r /\ wide ds r n ds (fun i js => map3 op (all3 (g i js)) (f i js)).
Proof.
  intros (Sa & La & Ha) (Sb & Lb & Hb) Z.
  assert (ZZ : zipdims (shp a) (shp b) = Ok (n :: ds ++ [3%nat])).
  { rewrite Sa, Sb. change (n :: ds ++ [3%nat]) with ([n] ++ ds ++ [3%nat]).
    change (n :: d1 ++ [1%nat]) with ([n] ++ d1 ++ [1%nat]). change (n :: d2 ++ [3%nat]) with ([n] ++ d2 ++ [3%nat]).
    apply zip_app; [apply zip_same|]. apply zip_app; [exact Z|reflexivity]. }
  rewrite (bop_zip _ _ _ _ ZZ). eexists. split; [reflexivity|]. split; [reflexivity|]. split; [reflexivity|].
  intros i js Hi J. pose proof (inside_length _ _ J) as LJ. rewrite (pick_full _ _ J).
  rewrite <- (Ha i js Hi J), <- (Hb i js Hi J). unfold row, map3, all3. cbn [get x3 y3 z3]. rewrite Sa, Sb.
  rewrite <- !app_comm_cons. rewrite !pick_at by (first [exact Hi | reflexivity | lia]).
  reflexivity.
Qed.
Lemma bop_ss op a b n ds d1 d2 f g : wide1 d1 [] a n ds f -> wide1 d2 [] b n ds g -> zipdims d1 d2 = Ok ds ->
  exists r, bop op a b = Ok r /\ wide1 ds [] r n ds (fun i js => op (f i js) (g i js)).
Proof.
  intros (Sa & La & Ha) (Sb & Lb & Hb) Z.
  assert (ZZ : zipdims (shp a) (shp b) = Ok (n :: ds ++ [])).
  { rewrite Sa, Sb. change (n :: ds ++ []) with ([n] ++ ds ++ []).
    change (n :: d1 ++ []) with ([n] ++ d1 ++ []). change (n :: d2 ++ []) with ([n] ++ d2 ++ []).
    apply zip_app; [apply zip_same|]. apply zip_app; [exact Z|reflexivity]. }
  rewrite (bop_zip _ _ _ _ ZZ). eexists. split; [reflexivity|]. split; [reflexivity|]. split; [reflexivity|].
  intros i js Hi J. pose proof (inside_length _ _ J) as LJ. rewrite (pick_full _ _ J).
  rewrite <- (Ha i js Hi J), <- (Hb i js Hi J). cbn [get length repeat]. rewrite Sa, Sb.
  rewrite !pick_at by (first [exact Hi | reflexivity | lia]). reflexivity.
Qed.

Lemma wide_map op t n ds d f : wide d t n ds f ->
  wide d (tmap op t) n ds (fun i js => V3 (op (x3 (f i js))) (op (y3 (f i js))) (op (z3 (f i js)))).
Proof.
  intros (S & L & H). split; [exact S|]. split; [exact L|]. intros i js Hi J. rewrite <- (H i js Hi J). reflexivity.
Qed.
Lemma wide1_map op tl t n ds d f : wide1 d tl t n ds f -> wide1 d tl (tmap op t) n ds (fun i js => op (f i js)).
Proof.
  intros (S & L & H). split; [exact S|]. split; [exact L|]. intros i js Hi J. rewrite <- (H i js Hi J). reflexivity.
Qed.
Lemma last_snoc (l : list nat) x d : last (l ++ [x]) d = x.
Proof. apply last_last. Qed.
Lemma sumf3 f : sumf 3 f = f 0%nat + f 1%nat + f 2%nat.
Proof. unfold sumf. cbn. ring. Qed.
Definition unit6 (v : vec3) : vec3 := div3 v (Rmax (norm3 v) (/ 1000000)).
Lemma wide_unit t n ds d f : wide d t n ds f -> wide d (normalize_last t) n ds (fun i js => unit6 (f i js)).
Proof.
  intros (S & L & H). split; [exact S|]. split; [exact L|]. intros i js Hi J. rewrite <- (H i js Hi J).
  unfold row, normalize_last, unit6, div3, norm3, dot3. cbn [get x3 y3 z3]. unfold last_dim. rewrite S.
  rewrite app_comm_cons, last_snoc.
  rewrite !removelast_last, !sumf3. reflexivity.
Qed.
Lemma wide_sum t n ds f : wide ds t n ds f ->
  wide1 ds [] (sum_last t) n ds (fun i js => x3 (f i js) + y3 (f i js) + z3 (f i js)).
Proof.
  intros (S & L & H). unfold sum_last, last_dim. rewrite S, app_comm_cons, removelast_last, last_snoc.
  split; [cbn; rewrite app_nil_r; reflexivity|]. split; [reflexivity|]. intros i js Hi J. rewrite <- (H i js Hi J).
  cbn [get length repeat]. rewrite app_nil_r. rewrite sumf3. reflexivity.
Qed.
Lemma wide_unsq t n ds d f : wide1 d [] t n ds f -> wide1 d [1%nat] (unsqueeze_last t) n ds f.
Proof.
  intros (S & L & H). unfold unsqueeze_last. rewrite S.
  split; [cbn; rewrite app_nil_r; reflexivity|]. split; [exact L|]. intros i js Hi J. rewrite <- (H i js Hi J).
  cbn [get length repeat]. rewrite app_comm_cons, removelast_last, app_nil_r. reflexivity.
Qed.

(* ---- the batch dimension ---- *)
Lemma expand_vecs t n ds f : vecs t n ds f -> exists t', expand_batch n t = Ok t' /\ vecs t' n ds f.
Proof.
  intros (S & H). unfold expand_batch. rewrite S, Nat.eqb_refl, andb_false_r. eexists. split; [reflexivity|].
  split; [reflexivity|]. intros i js Hi J. rewrite <- (H i js Hi J). unfold row. cbn [get app].
  replace (if (n =? 1)%nat then 0%nat else i) with i; [reflexivity|]. destruct (Nat.eqb_spec n 1); lia.
Qed.
Lemma expand_prop t n f : (0 < n)%nat -> prop3 t n f -> exists t', expand_batch n t = Ok t' /\ vecs t' n [] (fun i _ => f i).
Proof.
  intros Hn [(S & H)|(S & H)]; unfold expand_batch; rewrite S.
  - rewrite Nat.eqb_refl, andb_false_r. eexists. split; [reflexivity|]. split; [reflexivity|].
    intros i js Hi J. inversion J; subst. rewrite <- (H i Hi). unfold row. cbn [get app].
    replace (if (n =? 1)%nat then 0%nat else i) with i; [reflexivity|]. destruct (Nat.eqb_spec n 1); lia.
  - cbn [Nat.eqb negb andb]. eexists. split; [reflexivity|]. split; [reflexivity|].
    intros i js Hi J. inversion J; subst. rewrite <- (H i Hi). reflexivity.
Qed.
Lemma expand_prop1 t n g : (0 < n)%nat -> prop1 t n g -> exists t', expand_batch n t = Ok t' /\ wide1 [] [] t' n [] (fun i _ => g i).
Proof.
  intros Hn [(S & H)|(S & H)]; unfold expand_batch; rewrite S.
  - rewrite Nat.eqb_refl, andb_false_r. eexists. split; [reflexivity|]. split; [reflexivity|]. split; [reflexivity|].
    intros i js Hi J. inversion J; subst. rewrite <- (H i Hi). cbn [get app pick combine map length repeat skipn Nat.sub].
    replace (if (n =? 1)%nat then 0%nat else i) with i; [reflexivity|]. destruct (Nat.eqb_spec n 1); lia.
  - cbn [Nat.eqb negb andb]. eexists. split; [reflexivity|]. split; [reflexivity|]. split; [reflexivity|].
    intros i js Hi J. inversion J; subst. rewrite <- (H i Hi). reflexivity.
Qed.
Lemma prop3_size t n f : (0 < n)%nat -> prop3 t n f -> batch_size t = n \/ batch_size t = 1%nat.
Proof. intros Hn [(S & _)|(S & _)]; unfold batch_size; rewrite S; [left|right]; reflexivity. Qed.
Lemma prop1_size t n f : (0 < n)%nat -> prop1 t n f -> batch_size t = n \/ batch_size t = 1%nat.
Proof. intros Hn [(S & _)|(S & _)]; unfold batch_size; rewrite S; [left|right]; reflexivity. Qed.

Lemma prod_ones k : prod_nat (ones k) = 1%nat.
Proof. unfold prod_nat; induction k as [|k IH]; [reflexivity|]. cbn [repeat app fold_right]. rewrite IH. reflexivity. Qed.
Lemma prod_ones3 k : prod_nat (ones k ++ [3%nat]) = 3%nat.
Proof. unfold prod_nat; induction k as [|k IH]; [reflexivity|]. cbn [repeat app fold_right]. rewrite IH. reflexivity. Qed.
Lemma flat_zeros k s c : flat (ones k ++ s) (zeros k ++ c) = flat s c.
Proof. induction k as [|k IH]; [reflexivity|]. cbn. exact IH. Qed.

(* a property gets the intermediate dimensions of the points *)
Lemma reshape_prop pts t n ds f : shp pts = n :: ds ++ [3%nat] -> vecs t n [] (fun i _ => f i) ->
  exists t' d, reshape_like pts [3%nat] t = Ok t' /\ wide d t' n ds (fun i _ => f i) /\ zipdims d ds = Ok ds.
Proof.
  intros SP (S & H). unfold reshape_like, shape_eqb. destruct (list_eq_dec Nat.eq_dec (shp t) (shp pts)) as [E|E].
  - rewrite S, SP in E. injection E as E. destruct ds as [|d ds].
    2:{ cbn in E. injection E as _ E. symmetry in E. apply app_eq_nil in E. destruct E; discriminate. }
    exists t, []. split; [reflexivity|]. split; [|reflexivity]. apply vecs_wide. split; [exact S|]. exact H.
  - unfold view_first. rewrite SP. replace (length (n :: ds ++ [3%nat]) - 2)%nat with (length ds) by (cbn; rewrite app_length; cbn; lia).
    rewrite prod_ones3, S. cbn [prod_nat fold_right app].
    replace (n * (3 * 1))%nat with (n * 3)%nat by lia. rewrite Nat.mod_mul by lia. cbn [Nat.eqb negb orb].
    rewrite Nat.div_mul by lia. exists (T (n :: ones (length ds) ++ [3%nat]) (fun idx => get t (unflat [n; 3%nat] (flat (n :: ones (length ds) ++ [3%nat]) idx)))), (ones (length ds)).
    split; [reflexivity|]. split; [|apply zip_ones]. split; [reflexivity|]. split; [apply repeat_length|].
    intros i js Hi J. rewrite pick_ones by (apply inside_length; exact J).
    rewrite <- (H i [] Hi (Forall2_nil _)). unfold row. cbn [get].
    assert (E3 : forall c, (c < 3)%nat -> unflat [n; 3%nat] (flat (n :: ones (length ds) ++ [3%nat]) ((i :: zeros (length ds)) ++ [c])) = [i; c]).
    { intros c Hc. rewrite <- app_comm_cons. cbn [flat]. rewrite prod_ones3, flat_zeros. cbn [flat prod_nat fold_right unflat].
      replace (i * 3 + (c * 1 + 0))%nat with (c + i * 3)%nat by lia. replace (3 * 1)%nat with 3%nat by lia.
      rewrite Nat.div_add, Nat.mod_add by lia. rewrite (Nat.div_small c 3), (Nat.mod_small c 3) by lia. rewrite Nat.div_1_r.
      reflexivity. }
    rewrite !E3 by lia. reflexivity.
Qed.
Lemma reshape_full pts t n ds f : shp pts = n :: ds ++ [3%nat] -> vecs t n ds f -> reshape_like pts [3%nat] t = Ok t.
Proof.
  intros SP (S & H). unfold reshape_like, shape_eqb. rewrite S, SP.
  destruct (list_eq_dec Nat.eq_dec (n :: ds ++ [3%nat]) (n :: ds ++ [3%nat])); [reflexivity|contradiction].
Qed.
Lemma reshape_prop1 pts t n ds g : shp pts = n :: ds ++ [3%nat] -> wide1 [] [] t n [] (fun i _ => g i) ->
  exists t' d, reshape_like pts [] t = Ok t' /\ wide1 d [] t' n ds (fun i _ => g i) /\ zipdims d ds = Ok ds.
Proof.
  intros SP (S & _ & H). unfold reshape_like, shape_eqb. destruct (list_eq_dec Nat.eq_dec (shp t) (shp pts)) as [E|E].
  - rewrite S, SP in E. cbn in E. injection E as E. symmetry in E. apply app_eq_nil in E. destruct E; discriminate.
  - unfold view_first. rewrite SP. replace (length (n :: ds ++ [3%nat]) - 2)%nat with (length ds) by (cbn; rewrite app_length; cbn; lia).
    rewrite app_nil_r, prod_ones, S. cbn [prod_nat fold_right app].
    rewrite Nat.mod_1_r. cbn [Nat.eqb negb orb]. rewrite Nat.div_1_r, Nat.mul_1_r.
    exists (T (n :: ones (length ds)) (fun idx => get t (unflat [n] (flat (n :: ones (length ds)) idx)))), (ones (length ds)).
    split; [reflexivity|]. split; [|apply zip_ones]. split; [cbn; rewrite app_nil_r; reflexivity|]. split; [apply repeat_length|].
    intros i js Hi J. rewrite pick_ones by (apply inside_length; exact J).
    rewrite <- (H i [] Hi (Forall2_nil _)). cbn [get length repeat]. rewrite app_nil_r. cbn [pick app combine map skipn length Nat.sub].
    cbn [flat unflat]. rewrite prod_ones. replace (ones (length ds)) with (ones (length ds) ++ []) by apply app_nil_r.
    replace (zeros (length ds)) with (zeros (length ds) ++ []) by apply app_nil_r. rewrite flat_zeros. cbn [flat prod_nat fold_right].
    rewrite Nat.div_1_r, Nat.mul_1_r, Nat.add_0_r. reflexivity.
Qed.
