From Verif Require Import Base Packing.

(* ---------- padded tensors ---------- *)

Lemma get_full {A} dims (v : A) idx : Forall2 lt idx dims -> get (full dims v) idx = Some v.
Proof.
  revert idx; induction dims as [|d ds IH]; intros idx H; inversion H; subst; cbn.
  - reflexivity.
  - rewrite nth_error_repeat_lt by assumption. apply IH; assumption.
Qed.

Lemma get_pad_into {A} dims (v : A) :
  forall t s idx, has_shape s t -> length s = length dims -> Forall2 lt idx dims ->
  get (pad_into dims v t) idx = Some (match get t idx with Some a => a | None => v end).
Proof.
  induction dims as [|d ds IH]; intros t s idx Hs Hl Hi; inversion Hi; subst.
  - destruct s; cbn in Hl; [|lia]. destruct t; cbn in Hs; [|easy]. reflexivity.
  - destruct s as [|s0 s]; cbn in Hl; [lia|]. destruct t as [a|tl]; cbn in Hs; [easy|].
    destruct Hs as [Hlen Hall]. cbn [pad_into get].
    destruct (lt_dec x (length tl)) as [Hx|Hx].
    + rewrite nth_error_app_l by (rewrite map_length, firstn_length; lia).
      rewrite nth_error_map_iff, nth_error_firstn.
      destruct (x <? d) eqn:E; [|lia].
      destruct (nth_error tl x) as [u|] eqn:Eu.
      2:{ apply nth_error_None in Eu; lia. }
      cbn. apply IH with (s := s); [|lia|assumption].
      rewrite Forall_forall in Hall; apply Hall; eapply nth_error_In; eauto.
    + rewrite (proj2 (nth_error_None tl x)) by lia.
      rewrite nth_error_app2 by (rewrite map_length, firstn_length; lia).
      rewrite nth_error_repeat_lt by (rewrite map_length, firstn_length; lia).
      apply get_full; assumption.
Qed.

Lemma slice_pad_into {A} (v : A) :
  forall s dims t, has_shape s t -> Forall2 le s dims -> slice s (pad_into dims v t) = t.
Proof.
  induction s as [|d s IH]; intros dims t Hs Hd; inversion Hd; subst.
  - destruct t; cbn in Hs; [reflexivity|easy].
  - destruct t as [a|tl]; cbn in Hs; [easy|]. destruct Hs as [Hlen Hall].
    cbn [pad_into slice]. f_equal.
    rewrite (firstn_all2 tl) by lia.
    rewrite firstn_app, map_length.
    replace (d - length tl) with 0 by lia. cbn [firstn]. rewrite app_nil_r.
    rewrite firstn_all2 by (rewrite map_length; lia).
    rewrite map_map. rewrite <- (map_id tl) at 2. apply map_ext_in.
    intros u Hu. apply IH; [|assumption]. rewrite Forall_forall in Hall; auto.
Qed.

Lemma slice_full_zero {A} dims (v : A) : forall s, hd 0 s = 0 -> s <> [] -> dims <> [] ->
  slice s (full dims v) = Dm [].
Proof. intros [|d s] H N1 N2; [easy|]. cbn in H; subst. destruct dims; [easy|reflexivity]. Qed.

Definition norm_elem {A} n (y : tensor A) : tensor A :=
  if (ndim y =? 1) && (numel y =? 0) then mk (repeat 0 n) (Dm []) else y.

Lemma match_cons {A B} (l : list A) (b c : B) : l <> [] ->
  match l with [] => b | _ :: _ => c end = c.
Proof. destruct l; [easy|reflexivity]. Qed.

Section Padded.
Context {A : Type} (n : nat) (Hn : n > 0).
Implicit Types y : tensor A.

Lemma norm_elem_spec y : wf y -> ndim y = n \/ shape y = [0] ->
  let z := norm_elem n y in
  wf z /\ ndim z = n /\ data z = data y /\ len0 z = len0 y /\ (len0 y > 0 -> z = y).
Proof.
  unfold norm_elem, wf, ndim, numel, len0. intros W H.
  destruct y as [s d]; cbn [shape data] in *.
  destruct ((length s =? 1) && (fold_right Nat.mul 1 s =? 0)) eqn:E; cbn [shape data].
  - destruct s as [|s0 [|s1 s]]; cbn in E; try lia.
    assert (s0 = 0) by lia; subst s0.
    destruct d as [a|l]; cbn in W; [easy|]. destruct W as [W _].
    destruct l; [|cbn in W; lia].
    destruct n as [|m]; [lia|]. cbn. rewrite repeat_length.
    repeat split; auto; lia.
  - destruct H as [H|H]; [repeat split; auto|]. subst s. cbn in E; discriminate.
Qed.

Variable xs : list (tensor A).
Hypothesis Hwf : Forall wf xs.
Hypothesis Hdim : Forall (fun y => ndim y = n \/ shape y = [0]) xs.
Hypothesis Hne : exists y, In y xs /\ len0 y > 0.

Let zs := map (norm_elem n) xs.
Lemma Hwf_in y : In y xs -> wf y.
Proof. rewrite Forall_forall in Hwf; auto. Qed.
Lemma Hdim_in y : In y xs -> ndim y = n \/ shape y = [0].
Proof. rewrite Forall_forall in Hdim; auto. Qed.


Lemma zs_spec z : In z zs -> wf z /\ ndim z = n.
Proof.
  unfold zs; rewrite in_map_iff; intros [y [<- Hy]].
  pose proof Hwf_in as HW; pose proof Hdim_in as HD.
  destruct (norm_elem_spec y) as (W & D & _); auto.
Qed.

Lemma max_ndim : max_nat (map (@ndim A) xs) = n.
Proof.
  pose proof Hdim_in as HD.
  destruct Hne as [y [Hy Hl]].
  assert (ndim y = n).
  { destruct (HD y Hy) as [|E]; [assumption|]. unfold len0 in Hl; rewrite E in Hl; cbn in Hl; lia. }
  apply Nat.le_antisymm.
  - assert (H2 : forall m, In m (map (@ndim A) xs) -> m <= n).
    { intros m; rewrite in_map_iff; intros [u [<- Hu]].
      destruct (HD u Hu) as [|E]; [lia|]. unfold ndim; rewrite E; cbn; lia. }
    assert (N : map (@ndim A) xs <> []) by (destruct xs; [destruct Hy|discriminate]).
    apply max_nat_in in N. auto.
  - rewrite <- H. apply max_nat_ge. apply in_map; assumption.
Qed.

Definition pad_dims_of (zs : list (tensor A)) :=
  map (fun dim => max_nat (map (fun y => nth dim (shape y) 0)
                               (filter (fun y => negb (len0 y =? 0)) zs))) (seq 0 n).

Definition pad_dims := pad_dims_of xs.

Lemma filter_zs : filter (fun y => negb (len0 y =? 0)) zs = filter (fun y => negb (len0 y =? 0)) xs.
Proof.
  unfold zs. rewrite Forall_forall in Hwf, Hdim. clear Hne zs.
  induction xs as [|y ys IH]; cbn; [reflexivity|].
  destruct (norm_elem_spec y) as (_ & _ & _ & L & E); [apply Hwf|apply Hdim|]; try (left; reflexivity).
  rewrite L. rewrite IH by (intros; (apply Hwf || apply Hdim); right; assumption).
  destruct (len0 y =? 0) eqn:E0; cbn; [reflexivity|]. rewrite E by lia. reflexivity.
Qed.

Lemma fits_dims y : In y xs -> len0 y > 0 ->
  Forall2 le (shape y) pad_dims.
Proof.
  intros Hy Hl. apply Forall2_nth.
  - pose proof Hdim_in as HD. unfold pad_dims, pad_dims_of; rewrite map_length, seq_length.
    destruct (HD y Hy) as [E|E]; [assumption|]. unfold len0 in Hl; rewrite E in Hl; cbn in Hl; lia.
  - intros i a b Ha Hb. unfold pad_dims, pad_dims_of in Hb. rewrite nth_error_map_iff in Hb.
    destruct (nth_error (seq 0 n) i) as [k|] eqn:Ek; cbn in Hb; [|discriminate].
    injection Hb as <-.
    assert (i < n) by (rewrite <- (seq_length n 0); apply nth_error_Some; congruence).
    rewrite nth_error_seq_lt in Ek by assumption. injection Ek as <-.
    apply max_nat_ge. apply in_map_iff. exists y. split.
    + cbn. apply nth_error_nth; assumption.
    + apply filter_In. split; [assumption|]. destruct (len0 y); [lia|reflexivity].
Qed.

Lemma Forall2_le_fits s d : Forall2 le s d -> fits_all s d = true.
Proof. induction 1; cbn; [reflexivity|]. rewrite IHForall2. unfold fits. lia. Qed.

Definition pad_row (v : A) (y : tensor A) : tens A :=
  if len0 y =? 0 then full pad_dims v else pad_into pad_dims v (data y).

Lemma list_to_padded_eq v :
  list_to_padded xs None v false = Ok (mk (length xs :: pad_dims) (Dm (map (pad_row v) xs))).
Proof.
  unfold list_to_padded. destruct Hne as [y0 [Hy0 Hl0]].
  assert (Hxs : xs <> []) by (intros C; rewrite C in Hy0; destruct Hy0).
  rewrite match_cons by assumption.
  assert (Ez : map (fun y => if (ndim y =? 1) && (numel y =? 0)
       then mk (repeat 0 (max_nat (map (@ndim A) xs))) (Dm []) else y) xs = zs).
  { unfold zs, norm_elem. rewrite max_ndim. reflexivity. }
  cbv zeta. rewrite Ez.
  assert (Hz1 : match zs with [] => 0 | y :: _ => ndim y end = n).
  { destruct zs as [|z zs'] eqn:E.
    - unfold zs in E. apply map_eq_nil in E. contradiction.
    - apply zs_spec. rewrite E. left; reflexivity. }
  rewrite Hz1.
  destruct (existsb (fun y => negb (ndim y =? n)) zs) eqn:Eex.
  { apply existsb_exists in Eex as [z [Hz E]]. apply zs_spec in Hz. lia. }
  destruct (n =? 0) eqn:En; [lia|].
  rewrite filter_zs.
  assert (Hf : filter (fun y => negb (len0 y =? 0)) xs <> []).
  { intros C. assert (In y0 (filter (fun y => negb (len0 y =? 0)) xs)).
    { apply filter_In; split; [assumption|]. destruct (len0 y0); [lia|reflexivity]. }
    rewrite C in H; destruct H. }
  destruct (filter (fun y => negb (len0 y =? 0)) xs) as [|f0 fs] eqn:Ef; [easy|].
  rewrite <- Ef. cbn [rbind].
  change (map (fun dim : nat => max_nat (map (fun yy => nth dim (shape yy) 0)
    (filter (fun yy => negb (len0 yy =? 0)) xs))) (seq 0 n)) with pad_dims.
  assert (Hrows : rmap (fun y : tensor A => if len0 y =? 0 then Ok (full pad_dims v)
            else if fits_all (shape y) pad_dims then Ok (pad_into pad_dims v (data y))
                 else Fail ERuntime) zs = Ok (map (pad_row v) zs)).
  { apply rmap_ok. intros z Hz. unfold pad_row. destruct (len0 z =? 0) eqn:E0; [reflexivity|].
    rewrite Forall2_le_fits; [reflexivity|].
    unfold zs in Hz. apply in_map_iff in Hz as [y [<- Hy]].
    pose proof Hwf_in as HW; pose proof Hdim_in as HD.
    destruct (norm_elem_spec y) as (_ & _ & _ & L & E); auto.
    rewrite E by lia. apply fits_dims; [assumption|lia]. }
  rewrite Hrows. cbn [rbind].
  f_equal. f_equal.
  - unfold zs. rewrite map_length. reflexivity.
  - f_equal. unfold zs. rewrite map_map. apply map_ext_in. intros y Hy.
    pose proof Hwf_in as HW; pose proof Hdim_in as HD.
    destruct (norm_elem_spec y) as (_ & _ & D & L & _); auto.
    unfold pad_row. rewrite D, L. reflexivity.
Qed.

Lemma wf_len0_zero y : wf y -> ndim y = n \/ shape y = [0] -> len0 y = 0 -> data y = Dm [].
Proof.
  unfold wf, ndim, len0. destruct y as [s d]; cbn. destruct s as [|s0 s]; cbn.
  - intros _ [H|H]; [lia|discriminate].
  - intros W _ ->. destruct d as [a|l]; [easy|]. destruct W as [W _]. destruct l; [reflexivity|cbn in W; lia].
Qed.

Lemma get_nil_Dm idx : get (@Dm A []) idx = None.
Proof. destruct idx as [|[|i] idx]; reflexivity. Qed.

Lemma pad_row_get v y idx : In y xs -> Forall2 lt idx pad_dims ->
  get (pad_row v y) idx = Some (match get (data y) idx with Some a => a | None => v end).
Proof.
  intros Hy Hi. unfold pad_row. pose proof Hwf_in as HW; pose proof Hdim_in as HD.
  destruct (len0 y =? 0) eqn:E.
  - rewrite (wf_len0_zero y) by (auto; lia). rewrite get_nil_Dm. apply get_full; assumption.
  - apply get_pad_into with (s := shape y); [apply HW; assumption| |assumption].
    eapply Forall2_length. apply fits_dims; [assumption|lia].
Qed.

Lemma min_dims_le s d : Forall2 le s d -> min_dims s d = s.
Proof. induction 1; cbn; [reflexivity|]. rewrite IHForall2, Nat.min_l by assumption. reflexivity. Qed.

Lemma combine_map2 {B C D} (f : B -> C) (g : B -> D) l :
  combine (map f l) (map g l) = map (fun x => (f x, g x)) l.
Proof. induction l; cbn; congruence. Qed.

Lemma padded_roundtrip v :
  exists p r, list_to_padded xs None v false = Ok p /\
    padded_to_list p (Some (map (fun y => SSeq (shape y)) xs)) = Ok r /\
    Forall2 (fun y z => data z = data y /\ (len0 y > 0 -> z = y)) xs r.
Proof.
  eexists; eexists; split; [apply list_to_padded_eq|]. split.
  - unfold padded_to_list; cbn [shape data]. rewrite map_length, Nat.eqb_refl. cbn [negb].
    rewrite map_map, combine_map2, map_map. cbn [fst snd shape data]. reflexivity.
  - apply Forall2_nth; [rewrite map_length; reflexivity|].
    intros i y z Hy Hz. rewrite nth_error_map_iff, Hy in Hz. cbn in Hz. injection Hz as <-.
    apply nth_error_In in Hy. cbn [data]. unfold pad_row.
    pose proof Hwf_in as HW; pose proof Hdim_in as HD.
    destruct (len0 y =? 0) eqn:E.
    + split; [|lia]. rewrite (wf_len0_zero y) by (auto; lia).
      apply slice_full_zero.
      * unfold len0 in E. lia.
      * destruct (HD y Hy) as [H|H]; [|rewrite H; discriminate].
        unfold ndim in H. destruct (shape y); [cbn in H; lia|discriminate].
      * unfold pad_dims, pad_dims_of. destruct n; [lia|discriminate].
    + assert (Hle : Forall2 le (shape y) pad_dims) by (apply fits_dims; [assumption|lia]).
      assert (S : slice (shape y) (pad_into pad_dims v (data y)) = data y).
      { apply slice_pad_into; [apply HW; assumption|assumption]. }
      split; [exact S|]. intros _. rewrite S, min_dims_le by assumption. destruct y; reflexivity.
Qed.

End Padded.

(* the other representation of split sizes: one int per element. When all elements share
   their trailing dimensions the round trip is exact. *)
Lemma slice_nil {A} (t : tens A) : slice [] t = t.
Proof. destruct t; reflexivity. Qed.

Lemma slice_one_pad {A} (v : A) d ds l :
  Forall (has_shape ds) l -> length l <= d ->
  slice [length l] (pad_into (d :: ds) v (Dm l)) = Dm l.
Proof.
  intros H Hl. cbn [pad_into slice]. f_equal.
  rewrite map_id.
  rewrite (firstn_all2 l) by lia.
  rewrite firstn_app, map_length. replace (length l - length l) with 0 by lia. cbn [firstn].
  rewrite app_nil_r, firstn_all2 by (rewrite map_length; lia).
  rewrite <- (map_id l) at 2. apply map_ext_in. intros u Hu.
  rewrite Forall_forall in H. specialize (H u Hu). clear -H.
  revert u H; induction ds as [|d ds IH]; intros u H; destruct u as [a|lu]; cbn in *; try easy.
  destruct H as [HL HF]. f_equal. rewrite firstn_all2 by lia.
  replace (d - length lu) with 0 by lia. cbn. rewrite app_nil_r.
  rewrite <- (map_id lu) at 2. apply map_ext_in. intros w Hw. rewrite Forall_forall in HF. auto.
Qed.

Lemma padded_roundtrip_int {A} (xs : list (tensor A)) (rest : list nat) (v : A) :
  Forall wf xs -> Forall (fun y => exists k, shape y = k :: rest) xs ->
  (exists y, In y xs /\ len0 y > 0) ->
  exists p, list_to_padded xs None v false = Ok p /\
    shape p = length xs :: max_nat (map len0 xs) :: rest /\
    padded_to_list p (Some (map (fun y => SInt (len0 y)) xs)) = Ok xs.
Proof.
  intros Hwf Hsh Hne.
  assert (Hn : length (0 :: rest) > 0) by (cbn; lia).
  assert (Hdim : Forall (fun y : tensor A => ndim y = length (0 :: rest) \/ shape y = [0]) xs).
  { eapply Forall_impl; [|exact Hsh]. intros y [k E]. left. unfold ndim. rewrite E. reflexivity. }
  eexists. split; [apply (list_to_padded_eq (length (0 :: rest))); eauto|].
  assert (HF : forall y, In y xs -> exists k, shape y = k :: rest) by (rewrite Forall_forall in Hsh; auto).
  assert (Hpd : pad_dims (length (0 :: rest)) xs = max_nat (map len0 xs) :: rest).
  { unfold pad_dims, pad_dims_of. cbn [length seq map]. f_equal.
    - clear -HF. assert (G : forall l, (forall y, In y l -> exists k, shape y = k :: rest) ->
        max_nat (map (fun y : tensor A => nth 0 (shape y) 0) (filter (fun y => negb (len0 y =? 0)) l))
        = max_nat (map len0 l)); [|auto].
      induction l as [|y l IH]; intros H; [reflexivity|]. cbn [filter map].
      destruct (H y) as [k E]; [left; reflexivity|].
      assert (L : len0 y = k) by (unfold len0; rewrite E; reflexivity).
      assert (I := IH (fun y' h => H y' (or_intror h))).
      destruct (len0 y =? 0) eqn:E0; cbn [negb map].
      + rewrite I. unfold max_nat; cbn. lia.
      + unfold max_nat in *; cbn [map fold_right] in *. rewrite I. rewrite E; cbn [nth]. lia.
    - apply nth_error_ext_len.
      + rewrite map_length, seq_length. reflexivity.
      + intros i Hi. rewrite map_length, seq_length in Hi.
        rewrite nth_error_map_iff, nth_error_seq_lt by assumption. cbn [option_map].
        destruct (nth_error rest i) as [b|] eqn:Eb.
        2:{ apply nth_error_None in Eb; lia. }
        f_equal.
        destruct Hne as [y0 [Hy0 Hl0]].
        assert (In y0 (filter (fun y => negb (len0 y =? 0)) xs)).
        { apply filter_In; split; [assumption|]. destruct (len0 y0); [lia|reflexivity]. }
        assert (G : forall m, In m (map (fun y : tensor A => nth (1 + i) (shape y) 0)
                  (filter (fun y => negb (len0 y =? 0)) xs)) -> m = b).
        { intros m; rewrite in_map_iff; intros [y [<- Hy]]. apply filter_In in Hy as [Hy _].
          destruct (HF y Hy) as [k E]. rewrite E. cbn. apply nth_error_nth; assumption. }
        apply G. apply max_nat_in. destruct (filter _ xs); [easy|discriminate]. }
  rewrite Hpd. split; [reflexivity|].
  unfold padded_to_list; cbn [shape data]. rewrite map_length, Nat.eqb_refl. cbn [negb].
  rewrite map_map, combine_map2, map_map. cbn [fst snd shape data]. f_equal.
  rewrite <- (map_id xs) at 2. apply map_ext_in. intros y Hy.
  destruct (HF y Hy) as [k E].
  rewrite Forall_forall in Hwf. specialize (Hwf y Hy). unfold wf in Hwf. rewrite E in Hwf.
  assert (L : len0 y = k) by (unfold len0; rewrite E; reflexivity). rewrite L.
  assert (k <= max_nat (map len0 xs)) by (apply max_nat_ge; rewrite <- L; apply in_map; assumption).
  destruct y as [s d]; cbn [shape data] in *. subst s. f_equal.
  - cbn. rewrite Nat.min_l by assumption. destruct rest; reflexivity.
  - unfold pad_row. rewrite Hpd, L. destruct d as [a|l]; cbn in Hwf; [easy|]. destruct Hwf as [HL HW].
    destruct (k =? 0) eqn:E0.
    + assert (HL0 : length l = 0) by lia. destruct l; [|cbn in HL0; lia]. replace k with 0 by lia. reflexivity.
    + cbn [data]. rewrite <- HL. apply slice_one_pad; [assumption|lia].
Qed.

(* ---------- packed ---------- *)

Lemma cumsum_from_length acc l : length (cumsum_from acc l) = length l.
Proof. revert acc; induction l; intros; cbn; auto. Qed.

Lemma removelast_cons2 {A} (a b : A) l : removelast (a :: b :: l) = a :: removelast (b :: l).
Proof. reflexivity. Qed.

Lemma first_idx_length a l : length (0 :: cumsum (removelast (a :: l))) = S (length l).
Proof.
  cbn [length]. f_equal. unfold cumsum. rewrite cumsum_from_length.
  revert a; induction l as [|b l IH]; intros a; [reflexivity|].
  rewrite removelast_cons2. cbn [length]. f_equal. apply IH.
Qed.

(* generalised first-index table starting at acc *)
Fixpoint firsts (acc : nat) (l : list nat) : list nat :=
  match l with [] => [] | a :: l' => acc :: firsts (acc + a) l' end.

Lemma cumsum_removelast acc a l : acc :: cumsum_from acc (removelast (a :: l)) = firsts acc (a :: l).
Proof.
  revert acc a; induction l as [|b l IH]; intros acc a; [reflexivity|].
  rewrite removelast_cons2. cbn [cumsum_from]. rewrite IH. reflexivity.
Qed.

Lemma firsts_length acc l : length (firsts acc l) = length l.
Proof. revert acc; induction l; intros; cbn; auto. Qed.

Lemma firsts_nth acc l i : i < length l -> nth_error (firsts acc l) i = Some (acc + sum_nat (firstn i l)).
Proof.
  revert acc i; induction l as [|a l IH]; intros acc [|i] H; cbn in *; try lia.
  - f_equal; lia.
  - rewrite IH by lia. unfold sum_nat; cbn. f_equal; lia.
Qed.

Lemma firsts_ge acc l x : In x (firsts acc l) -> acc <= x.
Proof. revert acc; induction l as [|a l IH]; intros acc H; cbn in H; [easy|]. destruct H as [->|H]; [lia|]. apply IH in H; lia. Qed.

Lemma count_if_all_gt acc l v : v < acc -> count_if (fun x => x <=? v) (firsts acc l) = 0.
Proof.
  intros H. unfold count_if. replace (filter (fun x => x <=? v) (firsts acc l)) with (@nil nat); [reflexivity|].
  symmetry. assert (G : forall x, In x (firsts acc l) -> (x <=? v) = false).
  { intros x Hx; apply firsts_ge in Hx; lia. }
  induction (firsts acc l) as [|a m IH]; cbn; [reflexivity|].
  rewrite G by (left; reflexivity). apply IH; intros; apply G; right; assumption.
Qed.

(* the bucket of packed position v: entry j with acc_j <= v < acc_{j+1} *)
Lemma bucket_locates acc l v : acc <= v -> v < acc + sum_nat l ->
  exists j, count_if (fun x => x <=? v) (firsts acc l) = S j /\ j < length l /\
    acc + sum_nat (firstn j l) <= v /\ v < acc + sum_nat (firstn j l) + nth j l 0.
Proof.
  revert acc; induction l as [|a l IH]; intros acc H1 H2; cbn in H2; [lia|].
  change (fold_right Nat.add 0 l) with (sum_nat l) in H2.
  unfold count_if. cbn [firsts filter]. destruct (acc <=? v) eqn:E; [|lia].
  cbn [length]. fold (count_if (fun x => x <=? v) (firsts (acc + a) l)).
  destruct (lt_dec v (acc + a)) as [Hv|Hv].
  - exists 0. rewrite count_if_all_gt by assumption. cbn. repeat split; lia.
  - destruct (IH (acc + a)) as (j & C & L & B1 & B2); [lia|lia|].
    exists (S j). rewrite C. cbn [length firstn nth]. unfold sum_nat in *; cbn [fold_right]. repeat split; lia.
Qed.

Lemma concat_nth {A} (x : list (list A)) j k e :
  nth_error x j = Some e -> k < length e ->
  nth_error (concat x) (sum_nat (map (@length A) (firstn j x)) + k) = nth_error e k.
Proof.
  revert j; induction x as [|y x IH]; intros [|j] Hj Hk; cbn in Hj; try discriminate.
  - injection Hj as ->. cbn. apply nth_error_app_l; assumption.
  - cbn [firstn map concat]. unfold sum_nat; cbn [fold_right].
    rewrite <- Nat.add_assoc, nth_error_app_r. apply IH; assumption.
Qed.

Lemma list_to_packed_spec {A} (x : list (list A)) : x <> [] ->
  exists packed num first idx,
    list_to_packed x = Ok (packed, num, first, idx) /\
    packed = concat x /\ num = map (@length A) x /\
    length first = length x /\ length idx = length packed /\
    (forall j, j < length x -> nth_error first j = Some (sum_nat (firstn j num))) /\
    (forall i, i < length packed ->
       exists j f e, nth_error idx i = Some (Z.of_nat j) /\ nth_error first j = Some f /\
         nth_error x j = Some e /\ f <= i < f + length e /\
         nth_error packed i = nth_error e (i - f)).
Proof.
  intros Hx. destruct x as [|x0 x']; [easy|]. set (x := x0 :: x') in *.
  unfold list_to_packed. change (match x with [] => _ | _ :: _ => ?a end) with a.
  do 4 eexists. split; [reflexivity|]. cbv zeta.
  set (num := map (@length A) x).
  assert (Hf : 0 :: cumsum (removelast num) = firsts 0 num).
  { unfold num, x, cumsum. cbn [map]. apply cumsum_removelast. }
  rewrite Hf.
  split; [reflexivity|]. split; [reflexivity|].
  split; [rewrite firsts_length; unfold num; apply map_length|].
  split; [rewrite map_length, seq_length, length_concat_sum; reflexivity|].
  split.
  { intros j Hj. rewrite firsts_nth; [reflexivity|]. unfold num; rewrite map_length; assumption. }
  intros i Hi. rewrite length_concat_sum in Hi. fold num in Hi.
  destruct (bucket_locates 0 num i) as (j & C & L & B1 & B2); [lia|lia|].
  assert (Lx : j < length x) by (unfold num in L; rewrite map_length in L; assumption).
  destruct (nth_error x j) as [e|] eqn:Ee.
  2:{ apply nth_error_None in Ee; lia. }
  assert (He : nth j num 0 = length e).
  { apply nth_error_nth. unfold num. rewrite nth_error_map_iff, Ee. reflexivity. }
  exists j, (sum_nat (firstn j num)), e.
  split; [|split; [|split; [|split]]].
  - rewrite nth_error_map_iff, nth_error_seq_lt by assumption. cbn [option_map].
    unfold bucketize_right. rewrite Nat.add_0_l, C. f_equal. lia.
  - rewrite firsts_nth by assumption. reflexivity.
  - assumption.
  - lia.
  - rewrite <- (concat_nth x j (i - sum_nat (firstn j num)) e); [|assumption|lia].
    f_equal. unfold num. rewrite <- firstn_map. fold num. lia.
Qed.

Lemma split_sizes_concat {A} (x : list (list A)) :
  split_sizes (concat x) (map (@length A) x) = x.
Proof.
  induction x as [|a x IH]; cbn; [reflexivity|].
  rewrite firstn_app, firstn_all2 by lia. replace (length a - length a) with 0 by lia.
  cbn. rewrite app_nil_r. f_equal.
  rewrite skipn_app, skipn_all. replace (length a - length a) with 0 by lia. cbn. assumption.
Qed.

Lemma packed_to_list_inverse {A} (x : list (list A)) :
  packed_to_list (concat x) (map (@length A) x) = Ok x.
Proof.
  unfold packed_to_list. rewrite length_concat_sum, Nat.eqb_refl, split_sizes_concat. reflexivity.
Qed.

Lemma concat_split_sizes {A} ss : forall (x : list A), sum_nat ss = length x ->
  concat (split_sizes x ss) = x /\ map (@length A) (split_sizes x ss) = ss.
Proof.
  induction ss as [|n ss IH]; intros x H; cbn in *.
  - destruct x; [split; reflexivity|cbn in H; lia].
  - change (fold_right Nat.add 0 ss) with (sum_nat ss) in H.
    destruct (IH (skipn n x)) as [I1 I2]; [rewrite skipn_length; lia|].
    rewrite I1, I2, firstn_skipn, firstn_length. split; [reflexivity|]. f_equal; lia.
Qed.

(* padded_to_packed *)
Lemma idx_block {A} M (x : list (list A)) : Forall (fun r => length r = M) x ->
  forall ss base (pre : list (list A)), length ss = length x -> length pre = base ->
  Forall (fun r => length r = M) pre ->
  Forall2 (fun s r => s <= length r) ss x ->
  rmap (fun k => match nth_error (concat (pre ++ x)) k with Some r => Ok r | None => Fail EIndex end)
    (concat (map (fun iv => map (fun j => j + fst iv * M) (seq 0 (snd iv)))
                 (combine (seq base (length ss)) ss)))
  = Ok (concat (map (fun p => firstn (fst p) (snd p)) (combine ss x))).
Proof.
  intros Hx. induction Hx as [|r x Hr Hx IH]; intros ss base pre HL Hb Hp HF.
  - destruct ss; [reflexivity|cbn in HL; lia].
  - destruct ss as [|s ss]; [cbn in HL; lia|]. inversion HF; subst.
    cbn [length seq combine map concat fst snd].
    assert (Hrmap_app : forall (f : nat -> result A) l1 l2 a b, rmap f l1 = Ok a -> rmap f l2 = Ok b ->
              rmap f (l1 ++ l2) = Ok (a ++ b)).
    { intros f l1; induction l1 as [|q l1 IHl]; intros l2 a b Ha Hb'; cbn in *.
      - injection Ha as <-. assumption.
      - destruct (f q); cbn in *; [|discriminate].
        destruct (rmap f l1) eqn:E; cbn in *; [|discriminate]. injection Ha as <-.
        rewrite (IHl l2 a1 b eq_refl Hb'). reflexivity. }
    apply Hrmap_app.
    + assert (G : forall q, q <= length r ->
        rmap (fun k => match nth_error (concat (pre ++ r :: x)) k with Some r => Ok r | None => Fail EIndex end)
          (map (fun j => j + length pre * length r) (seq (length r - q) (s - (length r - q)))) =
        Ok (firstn (s - (length r - q)) (skipn (length r - q) r))).
      { induction q as [|q IHq]; intros Hq.
        - replace (s - (length r - 0)) with 0 by lia. reflexivity.
        - destruct (le_lt_dec s (length r - S q)) as [Hs|Hs].
          { replace (s - (length r - S q)) with 0 by lia. reflexivity. }
          replace (s - (length r - S q)) with (S (s - (length r - q))) by lia.
          cbn [seq map rmap].
          assert (Hc : length (concat pre) = length pre * length r).
          { clear -Hp. induction Hp; cbn; [reflexivity|]. rewrite app_length, IHHp. lia. }
          rewrite concat_app. cbn [concat].
          replace (length r - S q + length pre * length r) with (length (concat pre) + (length r - S q)) by lia.
          rewrite nth_error_app_r, nth_error_app_l by lia.
          destruct (nth_error r (length r - S q)) as [a|] eqn:Ea.
          2:{ apply nth_error_None in Ea; lia. }
          cbn [rbind].
          replace (S (length r - S q)) with (length r - q) by lia.
          rewrite concat_app in IHq; cbn [concat] in IHq. rewrite IHq by lia. cbn [rbind]. f_equal.
          assert (Hsk : skipn (length r - S q) r = a :: skipn (length r - q) r).
          { apply nth_error_split in Ea as (l1 & l2 & E1 & E2).
            replace (length r - q) with (S (length r - S q)) by lia.
            rewrite <- E2. rewrite E1.
            rewrite skipn_app, skipn_all. replace (length l1 - length l1) with 0 by lia.
            replace (S (length l1)) with (length (l1 ++ [a])) by (rewrite app_length; cbn; lia).
            change (l1 ++ a :: l2) with (l1 ++ [a] ++ l2). rewrite app_assoc.
            rewrite skipn_app, skipn_all.
            replace (length (l1 ++ [a]) - length (l1 ++ [a])) with 0 by lia. reflexivity. }
          rewrite Hsk. reflexivity. }
      specialize (G (length r) (le_n _)). rewrite Nat.sub_diag in G. cbn [skipn] in G.
      rewrite Nat.sub_0_r in G. exact G.
    + specialize (IH ss (S (length pre)) (pre ++ [r])).
      rewrite <- app_assoc in IH. cbn [app] in IH. apply IH.
      * cbn in HL; lia.
      * rewrite app_length; cbn; lia.
      * apply Forall_app; split; [assumption|]. constructor; auto.
      * assumption.
Qed.

Lemma padded_to_packed_split {A} M (x : list (list A)) ss :
  Forall (fun r => length r = M) x -> Forall2 (fun s r => s <= length r) ss x ->
  padded_to_packed M x (Some ss) None = Ok (concat (map (fun p => firstn (fst p) (snd p)) (combine ss x))).
Proof.
  intros Hx HF. assert (length ss = length x) by (eapply Forall2_length; eauto).
  unfold padded_to_packed. destruct (length x =? length ss) eqn:E; [|lia]. cbn [negb].
  apply (idx_block M x Hx ss 0 []); auto.
Qed.

(* padded rows of a list of clouds *)
Definition pad_rows {A} (zero : A) M (e : list A) := e ++ repeat zero (M - length e).

Lemma padded_to_packed_list {A} (zero : A) M (xs : list (list A)) :
  Forall (fun e => length e <= M) xs ->
  padded_to_packed M (map (pad_rows zero M) xs) (Some (map (@length A) xs)) None = Ok (concat xs).
Proof.
  intros H. rewrite padded_to_packed_split.
  - rewrite combine_map2, map_map. cbn [fst snd]. f_equal. f_equal.
    rewrite <- (map_id xs) at 2. apply map_ext. intros e. unfold pad_rows.
    rewrite firstn_app, firstn_all2 by lia. replace (length e - length e) with 0 by lia.
    cbn. apply app_nil_r.
  - rewrite Forall_map. eapply Forall_impl; [|exact H]. intros e He; cbn in He. unfold pad_rows.
    rewrite app_length, repeat_length. lia.
  - clear H. induction xs; cbn; constructor; auto. unfold pad_rows; rewrite app_length; lia.
Qed.

Lemma padded_to_packed_padvalue {A} (zero : A) M (xs : list (list A)) (is_pad : A -> bool) :
  is_pad zero = true -> (forall e r, In e xs -> In r e -> is_pad r = false) ->
  padded_to_packed M (map (pad_rows zero M) xs) None (Some is_pad) = Ok (concat xs).
Proof.
  intros Hz H. cbn. f_equal. induction xs as [|e xs IH]; [reflexivity|]. cbn [map concat].
  rewrite filter_app, IH by (intros; eapply H; [right|]; eauto). f_equal.
  unfold pad_rows. rewrite filter_app.
  assert (filter (fun r => negb (is_pad r)) e = e) as ->.
  { assert (G : forall r, In r e -> is_pad r = false) by (intros; eapply H; [left; reflexivity|assumption]).
    clear -G. induction e as [|r e IH]; cbn; [reflexivity|].
    rewrite G by (left; reflexivity). cbn. f_equal. apply IH; intros; apply G; right; assumption. }
  assert (filter (fun r => negb (is_pad r)) (repeat zero (M - length e)) = []) as ->.
  { induction (M - length e); cbn; [reflexivity|]. rewrite Hz. assumption. }
  apply app_nil_r.
Qed.
