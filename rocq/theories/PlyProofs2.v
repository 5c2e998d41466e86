(* Reading the binary records of a PLY file, complete or cut short. *)
From Coq Require Import Ascii String ZArith NArith Reals Bool List Permutation Lia.
From Verif Require Import Base RBase Text TextProofs Ply PlySpec PlyProofs.
Import ListNotations.
Local Open Scope Z_scope.

(* ---- bytes ---- *)
Lemma byte_of n : (n < 256)%N -> N_of_ascii (ascii_of_N n) = n.
Proof. apply N_ascii_embedding. Qed.
Lemma le_little size : forall z, le (little_endian size z) = Z.to_N (z mod 256 ^ Z.of_nat size).
Proof.
  unfold little_endian. induction size as [|size IH]; intros z.
  - cbn. rewrite Z.mod_1_r. reflexivity.
  - cbn [seq map le]. rewrite <- seq_shift, map_map.
    erewrite (map_ext _ (fun k => ascii_of_N (Z.to_N ((z / 256) / 256 ^ Z.of_nat k mod 256)))).
    2: { intros k. do 3 f_equal. rewrite Nat2Z.inj_succ, Z.pow_succ_r, Zdiv.Zdiv_Zdiv by lia. reflexivity. }
    rewrite IH, byte_of.
    2: { pose proof (Z.mod_pos_bound (z / 256 ^ Z.of_nat 0) 256 ltac:(lia)). apply N2Z.inj_lt. rewrite Z2N.id by lia. cbn; lia. }
    change (256 ^ Z.of_nat 0) with 1. rewrite Z.div_1_r.
    assert (Hp : 0 < 256 ^ Z.of_nat size) by (apply Z.pow_pos_nonneg; lia).
    apply N2Z.inj. rewrite N2Z.inj_add, N2Z.inj_mul, !Z2N.id by (apply Z.mod_pos_bound; try lia; apply Z.pow_pos_nonneg; lia).
    rewrite Nat2Z.inj_succ, Z.pow_succ_r by lia. change (Z.of_N 256) with 256.
    rewrite (Z.rem_mul_r z 256 (256 ^ Z.of_nat size)) by lia. reflexivity.
Qed.
Lemma little_length size z : length (little_endian size z) = size.
Proof. unfold little_endian. now rewrite map_length, seq_length. Qed.
Lemma stored_length big t v : length (stored big t v) = t_size t.
Proof. unfold stored. cbv zeta. destruct big; rewrite ?rev_length; apply little_length. Qed.
Definition z_of (v : num) : Z := match v with Whole z => z | Single b | Double b => Z.of_N b | Decimal _ => 0 end.
Lemma size_pos t : In t standard_types -> (0 < t_size t)%nat.
Proof. intros H. cbn in H. repeat (destruct H as [<-|H]; [cbn; lia|]). easy. Qed.
Lemma pow256 n : 2 ^ (8 * Z.of_nat n) = 256 ^ Z.of_nat n.
Proof. rewrite Z.pow_mul_r by lia. reflexivity. Qed.
Lemma value_little t v : (0 < t_size t)%nat -> fits t v -> value t (little_endian (t_size t) (z_of v)) = v.
Proof.
  intros Hs H. unfold value. rewrite le_little. unfold fits in H.
  assert (Hp : 0 < 256 ^ Z.of_nat (t_size t)) by (apply Z.pow_pos_nonneg; lia).
  assert (He : 256 ^ Z.of_nat (t_size t) = 2 * (256 ^ Z.of_nat (t_size t) / 2)).
  { destruct (t_size t) as [|k]; [lia|]. rewrite Nat2Z.inj_succ, Z.pow_succ_r by lia.
    replace (256 * 256 ^ Z.of_nat k) with (128 * 256 ^ Z.of_nat k * 2) by ring. rewrite Z.div_mul by lia. ring. }
  destruct (t_kind t), v as [z|b|b|x]; try easy; cbn [z_of].
  - cbv zeta. rewrite pow256. rewrite Z2N.id by (apply Z.mod_pos_bound; lia). f_equal.
    set (m := 256 ^ Z.of_nat (t_size t)) in *. set (h := m / 2) in *. destruct (Z.ltb_spec z 0).
    + assert (E : z mod m = z + m) by (symmetry; apply Zdiv.Zmod_unique with (-1); lia). rewrite E.
      destruct (Z.ltb_spec (z + m) h); lia.
    + rewrite Z.mod_small by lia. destruct (Z.ltb_spec z h); lia.
  - rewrite Z.mod_small by lia. rewrite Z2N.id by lia. reflexivity.
  - destruct H as [-> H]. cbn [Nat.eqb]. f_equal. rewrite Z.mod_small; [apply N2Z.id|]. split; [lia|]. apply (N2Z.inj_lt _ (2 ^ 32)). exact H.
  - destruct H as [-> H]. cbn [Nat.eqb]. f_equal. rewrite Z.mod_small; [apply N2Z.id|]. split; [lia|]. apply (N2Z.inj_lt _ (2 ^ 64)). exact H.
Qed.
Lemma unpack_stored big t v : (0 < t_size t)%nat -> fits t v -> unpack big t (stored big t v) = v.
Proof.
  intros Hs H. unfold unpack, stored. cbv zeta. fold (z_of v). destruct big; rewrite ?rev_involutive; now apply value_little.
Qed.
Lemma native_stored host big t v : (0 < t_size t)%nat -> fits t v -> native host big t (stored big t v) = v.
Proof.
  intros Hs H. unfold native, stored. cbv zeta. fold (z_of v). destruct host, big; cbn [Bool.eqb negb]; rewrite ?rev_involutive; now apply value_little.
Qed.

(* ---- taking bytes from a file cut after k bytes ---- *)
Lemma take_cut n k a b : length a = n -> take n (firstn k (a ++ b)) = if (k <? n)%nat then Fail EValue else Ok (a, firstn (k - n) b).
Proof.
  intros <-. unfold take. rewrite firstn_length, app_length. destruct (Nat.ltb_spec k (length a)).
  - destruct (Nat.ltb_spec (Nat.min k (length a + length b)) (length a)); [reflexivity|lia].
  - destruct (Nat.ltb_spec (Nat.min k (length a + length b)) (length a)); [lia|].
    rewrite (firstn_app k), (firstn_all2 (n := k) a) by lia. rewrite firstn_app, Nat.sub_diag, firstn_O, app_nil_r, firstn_all.
    rewrite skipn_app, skipn_all, Nat.sub_diag. reflexivity.
Qed.
Lemma chunks_concat size (l : list text) rest : Forall (fun x => length x = size) l -> chunks size (length l) (concat l ++ rest) = l.
Proof.
  induction 1 as [|x l Hx Hl IH]; [reflexivity|]. cbn [length chunks concat]. rewrite <- app_assoc.
  rewrite firstn_app, Hx, Nat.sub_diag, firstn_O, app_nil_r, <- Hx, firstn_all. rewrite skipn_app, skipn_all, Nat.sub_diag. cbn [skipn app]. rewrite Hx, IH. reflexivity.
Qed.
Lemma chunks_concat0 size (l : list text) : Forall (fun x => length x = size) l -> chunks size (length l) (concat l) = l.
Proof. intros H. rewrite <- (app_nil_r (concat l)). now apply chunks_concat. Qed.
Lemma concat_length_const {A} size (l : list (list A)) : Forall (fun x => length x = size) l -> length (concat l) = (length l * size)%nat.
Proof. induction 1 as [|x l Hx Hl IH]; [reflexivity|]. cbn. now rewrite app_length, IH, Hx. Qed.
Lemma stored_all_length big t vs : length (concat (map (stored big t) vs)) = (length vs * t_size t)%nat.
Proof. rewrite (concat_length_const (t_size t)); [now rewrite map_length|]. apply Forall_map, Forall_forall. intros; apply stored_length. Qed.
Lemma natives host big t vs : (0 < t_size t)%nat -> Forall (fits t) vs ->
  map (native host big t) (chunks (t_size t) (length vs) (concat (map (stored big t) vs))) = vs.
Proof.
  intros Hs H. rewrite <- (map_length (stored big t) vs), chunks_concat0 by (apply Forall_map, Forall_forall; intros; apply stored_length).
  rewrite map_map. rewrite <- (map_id vs) at 2. apply map_ext_in. intros v Hv. apply native_stored; auto. rewrite Forall_forall in H. now apply H.
Qed.

(* ---- one type ---- *)
Lemma read_fixed_ok host big t cols rows k rest : (0 < t_size t)%nat -> Forall (fun r => length r = cols /\ Forall (fits t) r) rows ->
  let enc := concat (map (fun r => concat (map (stored big t) r)) rows) in
  read_fixed_binary host big t cols (length rows) (firstn k (enc ++ rest)) =
  if (k <? length enc)%nat then Fail EValue else Ok (rows, firstn (k - length enc) rest).
Proof.
  intros Hs H enc. unfold read_fixed_binary.
  assert (HL : Forall (fun x => length x = cols * t_size t)%nat (map (fun r => concat (map (stored big t) r)) rows)).
  { apply Forall_map. eapply Forall_impl; [|exact H]. intros r [Hr _]. cbv beta. now rewrite stored_all_length, Hr. }
  assert (E : (length enc = length rows * cols * t_size t)%nat) by (unfold enc; rewrite (concat_length_const _ _ HL), map_length; lia).
  rewrite take_cut by exact E. rewrite <- E. destruct (k <? length enc)%nat; [reflexivity|]. cbn [rbind fst snd]. f_equal. f_equal.
  unfold enc. rewrite <- (map_length (fun r => concat (map (stored big t) r)) rows) at 1. rewrite chunks_concat0 by exact HL.
  rewrite map_map. rewrite <- (map_id rows) at 2. apply map_ext_in. intros r Hr. rewrite Forall_forall in H. destruct (H r Hr) as [Hr1 Hr2].
  rewrite <- Hr1. now apply natives.
Qed.

(* ---- several types ---- *)
Definition expand (rs : list (ptype * nat)) : list ptype := concat (map (fun tn => repeat (fst tn) (snd tn)) rs).
Lemma same_name t u : In t standard_types -> In u standard_types -> t_name t = t_name u -> t = u.
Proof. intros Ht Hu E. apply find_type_ok in Ht, Hu. rewrite E in Ht. congruence. Qed.
Lemma runs_in ts : forall t n, In (t, n) (runs ts) -> In t ts.
Proof.
  induction ts as [|t ts IH]; intros u n H; [easy|]. cbn [runs] in H. destruct (runs ts) as [|[v m] r].
  - destruct H as [H|[]]. injection H as <- _. now left.
  - destruct (text_eqb _ _).
    + destruct H as [H|H]; [injection H as <- _; now left|]. right. apply (IH u n). now right.
    + destruct H as [H|H]; [injection H as <- _; now left|]. right. apply (IH u n). exact H.
Qed.
Lemma expand_runs ts : Forall (fun t => In t standard_types) ts -> expand (runs ts) = ts.
Proof.
  induction ts as [|t ts IH]; intros H; [reflexivity|]. pose proof H as H'. apply Forall_cons_iff in H as [Ht H]. cbn [runs]. specialize (IH H).
  destruct (runs ts) as [|[u n] r] eqn:Er.
  - cbn in *. now rewrite <- IH.
  - destruct (text_eqb (t_name t) (t_name u)) eqn:E.
    + apply text_eqb_eq in E. assert (Eu : t = u). { apply same_name; auto. rewrite Forall_forall in H. apply H, (runs_in ts u n). rewrite Er. now left. }
      subst u. unfold expand in *. cbn [map concat fst snd repeat app] in *. now rewrite IH.
    + unfold expand in *. cbn [map concat fst snd repeat app] in *. now rewrite IH.
Qed.
Fixpoint split_nums (rs : list (ptype * nat)) (rows : list (list num)) : list (list (list num)) :=
  match rs with [] => [] | (_, n) :: rs => map (firstn n) rows :: split_nums rs (map (skipn n) rows) end.
Definition stored_nums (big : bool) (ts : list ptype) (row : list num) : text := concat (map (fun tv => stored big (fst tv) (snd tv)) (combine ts row)).
Lemma stored_nums_app big a b r1 r2 : length a = length r1 -> stored_nums big (a ++ b) (r1 ++ r2) = stored_nums big a r1 ++ stored_nums big b r2.
Proof.
  revert r1. induction a as [|t a IH]; intros [|x r1] H; try easy. unfold stored_nums in *. cbn. rewrite IH by (cbn in H; lia). now rewrite <- app_assoc.
Qed.
Lemma stored_nums_repeat big t n : forall r, length r = n -> stored_nums big (repeat t n) r = concat (map (stored big t) r).
Proof. induction n as [|n IH]; intros [|x r] H; try easy. unfold stored_nums in *. cbn. now rewrite IH by (cbn in H; lia). Qed.
Lemma stored_nums_length big : forall ts r, length r = length ts -> length (stored_nums big ts r) = sum_nat (map t_size ts).
Proof.
  induction ts as [|t ts IH]; intros [|x r] H; try easy. unfold stored_nums in *. cbn. rewrite app_length, stored_length, IH by (cbn in H; lia). reflexivity.
Qed.
Lemma cut_rows_ok host big : forall rs rows, Forall (fun t => (0 < t_size t)%nat) (expand rs) -> Forall (fun r => Forall2 fits (expand rs) r) rows ->
  cut_rows host big rs (map (stored_nums big (expand rs)) rows) = split_nums rs rows.
Proof.
  induction rs as [|[t n] rs IH]; intros rows Hp H; [reflexivity|]. cbn [cut_rows split_nums].
  assert (Ee : expand ((t, n) :: rs) = repeat t n ++ expand rs) by reflexivity. rewrite Ee in *. apply Forall_app in Hp as [Hp1 Hp2].
  assert (Hrow : forall r, In r rows -> exists r1 r2, r = r1 ++ r2 /\ length r1 = n /\ Forall (fits t) r1 /\ Forall2 fits (expand rs) r2).
  { intros r Hr. rewrite Forall_forall in H. specialize (H r Hr). apply Forall2_app_inv_l in H as (r1 & r2 & H1 & H2 & ->).
    exists r1, r2. split; auto. assert (L : length r1 = n) by (rewrite <- (Base.Forall2_length _ _ _ H1); apply repeat_length). split; auto. split; auto.
    clear - H1 L. revert n L H1. induction r1 as [|x r1 IH]; intros n L H1; [constructor|]. destruct n as [|n]; [easy|]. cbn in H1. inversion H1; subst. constructor; auto. apply (IH n); auto. }
  f_equal.
  - rewrite map_map. apply map_ext_in. intros r Hr. destruct (Hrow r Hr) as (r1 & r2 & -> & L & F1 & F2).
    rewrite stored_nums_app by (now rewrite repeat_length). rewrite stored_nums_repeat by auto.
    rewrite firstn_app, stored_all_length, L, Nat.sub_diag, firstn_O, app_nil_r. rewrite firstn_all2 by (rewrite stored_all_length; lia).
    rewrite firstn_app, L, Nat.sub_diag, firstn_O, app_nil_r, <- L, firstn_all.
    destruct r1 as [|x r1]; [reflexivity|]. apply natives; auto. destruct n; [easy|]. cbn in Hp1. now apply Forall_cons_iff in Hp1.
  - rewrite map_map. rewrite <- (IH (map (skipn n) rows)); auto.
    + rewrite map_map. f_equal. apply map_ext_in. intros r Hr. destruct (Hrow r Hr) as (r1 & r2 & -> & L & F1 & F2).
      rewrite stored_nums_app by (now rewrite repeat_length). rewrite stored_nums_repeat by auto.
      rewrite skipn_app, stored_all_length, L, Nat.sub_diag. rewrite skipn_all2 by (rewrite stored_all_length; lia).
      rewrite skipn_app, L, Nat.sub_diag, <- L, skipn_all. reflexivity.
    + apply Forall_map, Forall_forall. intros r Hr. destruct (Hrow r Hr) as (r1 & r2 & -> & L & F1 & F2).
      rewrite skipn_app, L, Nat.sub_diag, <- L, skipn_all. exact F2.
Qed.
Lemma read_nolists_ok host big ts rows k rest : Forall (fun t => In t standard_types) ts -> Forall (fun r => Forall2 fits ts r) rows ->
  let enc := concat (map (stored_nums big ts) rows) in
  read_nolists_binary host big ts (length rows) (firstn k (enc ++ rest)) =
  if (k <? length enc)%nat then Fail EValue else Ok (split_nums (runs ts) rows, firstn (k - length enc) rest).
Proof.
  intros Ht H enc. unfold read_nolists_binary.
  assert (HL : Forall (fun x => length x = sum_nat (map t_size ts)) (map (stored_nums big ts) rows)).
  { apply Forall_map. eapply Forall_impl; [|exact H]. intros r Hr. apply stored_nums_length. symmetry. exact (Base.Forall2_length _ _ _ Hr). }
  assert (E : (length enc = sum_nat (map t_size ts) * length rows)%nat) by (unfold enc; rewrite (concat_length_const _ _ HL), map_length; lia).
  rewrite take_cut by exact E. rewrite <- E. destruct (k <? length enc)%nat; [reflexivity|]. cbn [rbind fst snd]. f_equal. f_equal.
  unfold enc. rewrite <- (map_length (stored_nums big ts) rows) at 1. rewrite chunks_concat0 by exact HL.
  rewrite <- (expand_runs ts Ht) at 2. rewrite cut_rows_ok; [reflexivity| |]; rewrite expand_runs by auto; auto.
  eapply Forall_impl; [|exact Ht]. apply size_pos.
Qed.

(* ---- lists ---- *)
Definition stored_list (big : bool) (s t : ptype) (vs : list num) : text := stored big s (Whole (Z.of_nat (length vs))) ++ concat (map (stored big t) vs).
Definition list_ok (s t : ptype) (vs : list num) : Prop := fits s (Whole (Z.of_nat (length vs))) /\ Forall (fits t) vs.
Lemma length_whole n : length_of (Whole (Z.of_nat n)) = Ok n.
Proof. unfold length_of. destruct (Z.ltb_spec (Z.of_nat n) 0); [lia|]. now rewrite Nat2Z.id. Qed.
Lemma ltb_lt_false a b : (b <= a)%nat -> (a <? b)%nat = false.
Proof. intros. now apply Nat.ltb_ge. Qed.
Definition same_len (n : nat) (l : list (list num)) : bool := forallb (fun r => (length r =? n)%nat) l.
Lemma get_length_cut big s (vs : list num) k rest : (0 < t_size s)%nat -> fits s (Whole (Z.of_nat (length vs))) ->
  get_length big s (firstn k (stored big s (Whole (Z.of_nat (length vs))) ++ rest)) =
  if (k <? t_size s)%nat then Fail EValue else Ok (Whole (Z.of_nat (length vs)), firstn (k - t_size s) rest).
Proof.
  intros Hs H. unfold get_length. rewrite take_cut by apply stored_length. destruct (k <? t_size s)%nat; [reflexivity|]. cbn [rbind fst snd]. now rewrite unpack_stored.
Qed.
Lemma constant_rows_ok host big s t : (0 < t_size s)%nat -> (0 < t_size t)%nat -> forall rows vs k rest, Forall (list_ok s t) (vs :: rows) ->
  let enc := concat (map (stored big t) vs) ++ concat (map (stored_list big s t) rows) in
  let r := constant_rows host big s t (Whole (Z.of_nat (length vs))) (length vs) (length rows) (firstn k (enc ++ rest)) in
  (same_len (length vs) rows = true -> r = if (k <? length enc)%nat then Fail EValue else Ok (Some (vs :: rows, firstn (k - length enc) rest))) /\
  (same_len (length vs) rows = false -> r = Ok None \/ (k < length enc)%nat /\ r = Fail EValue).
Proof.
  intros Hs Ht. induction rows as [|ws rows IH]; intros vs k rest H enc r.
  - apply Forall_cons_iff in H as [[H1 H2] _]. cbn [map concat] in enc. assert (E : enc = concat (map (stored big t) vs)) by (unfold enc; apply app_nil_r).
    unfold r. cbn [constant_rows length]. rewrite E, take_cut by (rewrite stored_all_length; lia). rewrite stored_all_length, (Nat.mul_comm (t_size t)).
    split; [|easy]. intros _. destruct (k <? _)%nat; [reflexivity|]. cbn [rbind fst snd]. now rewrite natives.
  - pose proof H as H0. apply Forall_cons_iff in H as [[H1 H2] H]. pose proof H as H'. apply Forall_cons_iff in H as [[H3 H4] H].
    set (n1 := (t_size t * length vs)%nat). cbn [map concat] in enc. assert (L : length enc = (n1 + (t_size s + length (concat (map (stored big t) ws) ++ concat (map (stored_list big s t) rows))))%nat).
    { unfold enc, stored_list at 1. rewrite !app_length, !stored_all_length, stored_length. unfold n1. lia. }
    unfold r. cbn [constant_rows length]. fold n1.
    replace (enc ++ rest) with (concat (map (stored big t) vs) ++ (stored big s (Whole (Z.of_nat (length ws))) ++ ((concat (map (stored big t) ws) ++ concat (map (stored_list big s t) rows)) ++ rest)))
      by (unfold enc, stored_list at 2; rewrite <- !app_assoc; reflexivity).
    rewrite take_cut by (rewrite stored_all_length; unfold n1; lia).
    destruct (Nat.ltb_spec k n1) as [C|C].
    { cbn [rbind]. split; intros _; [|right; split; [lia|reflexivity]]. destruct (Nat.ltb_spec k (length enc)); [reflexivity|lia]. }
    cbn [rbind fst snd]. rewrite natives by auto. rewrite get_length_cut by auto.
    destruct (Nat.ltb_spec (k - n1) (t_size s)) as [C'|C'].
    { cbn [rbind]. split; intros _; [|right; split; [lia|reflexivity]]. destruct (Nat.ltb_spec k (length enc)); [reflexivity|lia]. }
    cbn [rbind fst snd same_length same_len forallb]. fold (same_len (length vs) rows). destruct (Nat.eqb_spec (length ws) (length vs)) as [El|El]; cbn [andb].
    + rewrite El, Z.eqb_refl. rewrite <- El. specialize (IH ws (k - n1 - t_size s)%nat rest H'). cbv zeta in IH. rewrite El in IH. rewrite <- El in IH.
      destruct IH as [I1 I2]. split; intros Hsl.
      * rewrite I1 by exact Hsl. destruct (Nat.ltb_spec (k - n1 - t_size s) (length (concat (map (stored big t) ws) ++ concat (map (stored_list big s t) rows)))) as [D|D];
          destruct (Nat.ltb_spec k (length enc)) as [D'|D']; try lia; cbn [rbind]; [reflexivity|]. do 4 f_equal. lia.
      * destruct (I2 Hsl) as [-> | [D ->]]; cbn [rbind]; [now left|]. right. split; [lia|reflexivity].
    + destruct (Z.eqb_spec (Z.of_nat (length vs)) (Z.of_nat (length ws))); [lia|]. split; intros Hsl; [easy|now left].
Qed.
Lemma try_constant_ok host big s t vs rows k rest : (0 < t_size s)%nat -> (0 < t_size t)%nat -> Forall (list_ok s t) (vs :: rows) ->
  let enc := concat (map (stored_list big s t) (vs :: rows)) in
  let r := try_constant_binary host big s t (length (vs :: rows)) (firstn k (enc ++ rest)) in
  (same_len (length vs) rows = true -> r = if (k <? length enc)%nat then Fail EValue else Ok (Some (vs :: rows, firstn (k - length enc) rest))) /\
  (same_len (length vs) rows = false -> r = Ok None \/ (k < length enc)%nat /\ r = Fail EValue).
Proof.
  intros Hs Ht H enc r. cbn [map concat] in enc. unfold r, try_constant_binary.
  assert (L : length enc = (t_size s + length (concat (map (stored big t) vs) ++ concat (map (stored_list big s t) rows)))%nat).
  { unfold enc, stored_list at 1. rewrite !app_length, stored_length. lia. }
  replace (enc ++ rest) with (stored big s (Whole (Z.of_nat (length vs))) ++ ((concat (map (stored big t) vs) ++ concat (map (stored_list big s t) rows)) ++ rest))
    by (unfold enc, stored_list at 2; rewrite <- !app_assoc; reflexivity).
  rewrite get_length_cut; auto. 2: { apply Forall_cons_iff in H as [[H _] _]. exact H. }
  destruct (Nat.ltb_spec k (t_size s)) as [C|C].
  { cbn [rbind]. split; intros _; [|right; split; [lia|reflexivity]]. destruct (Nat.ltb_spec k (length enc)); [reflexivity|lia]. }
  cbn [rbind fst snd]. rewrite length_whole. cbn [rbind length].
  destruct (constant_rows_ok host big s t Hs Ht rows vs (k - t_size s) rest H) as [I1 I2]. cbv zeta in I1, I2. split; intros Hsl.
  - rewrite I1 by exact Hsl. destruct (Nat.ltb_spec (k - t_size s) (length (concat (map (stored big t) vs) ++ concat (map (stored_list big s t) rows)))) as [D|D];
      destruct (Nat.ltb_spec k (length enc)) as [D'|D']; try lia; [reflexivity|]. do 3 f_equal. f_equal. lia.
  - destruct (I2 Hsl) as [-> | [D ->]]; [now left|]. right. split; [lia|reflexivity].
Qed.

(* ---- any record ---- *)
Definition prop_ok (p : prop) : Prop := In (p_type p) standard_types /\ match p_list p with Some s => In s standard_types | None => True end.
Lemma read_value_ok host big p d k rest : prop_ok p -> datum_fits p d ->
  read_value host big p (firstn k (stored_datum big p d ++ rest)) =
  if (k <? length (stored_datum big p d))%nat then Fail EValue else Ok (d, firstn (k - length (stored_datum big p d)) rest).
Proof.
  intros [H1 H2] H. unfold read_value, datum_fits, stored_datum in *. apply size_pos in H1. destruct (p_list p) as [s|], d as [v|vs]; try easy.
  - destruct H as [H3 H4]. apply size_pos in H2. rewrite <- app_assoc, get_length_cut by auto. rewrite app_length, stored_length, stored_all_length.
    destruct (Nat.ltb_spec k (t_size s)) as [C|C].
    { destruct (Nat.ltb_spec k (t_size s + length vs * t_size (p_type p))); [reflexivity|lia]. }
    cbn [rbind fst snd]. rewrite length_whole. cbn [rbind]. rewrite take_cut by (rewrite stored_all_length; lia).
    destruct (Nat.ltb_spec (k - t_size s) (t_size (p_type p) * length vs)), (Nat.ltb_spec k (t_size s + length vs * t_size (p_type p))); try lia; cbn [rbind fst snd]; [reflexivity|].
    rewrite natives by auto. do 3 f_equal. lia.
  - rewrite take_cut by apply stored_length. rewrite stored_length. destruct (k <? t_size (p_type p))%nat; [reflexivity|]. cbn [rbind fst snd]. now rewrite unpack_stored.
Qed.
Lemma read_values_ok host big : forall ps row k rest, Forall prop_ok ps -> Forall2 datum_fits ps row ->
  read_values host big ps (firstn k (stored_row big ps row ++ rest)) =
  if (k <? length (stored_row big ps row))%nat then Fail EValue else Ok (row, firstn (k - length (stored_row big ps row)) rest).
Proof.
  intros ps row k rest Hp H. revert k. induction H as [|p d ps row Hd H IH]; intros k.
  - cbn. rewrite Nat.sub_0_r. reflexivity.
  - apply Forall_cons_iff in Hp as [Hp Hps]. specialize (IH Hps). unfold stored_row in *. cbn [combine map concat read_values fst snd].
    rewrite <- app_assoc, read_value_ok by auto. rewrite app_length.
    destruct (Nat.ltb_spec k (length (stored_datum big p d))) as [C|C].
    { match goal with |- context [(k <? ?n)%nat] => destruct (Nat.ltb_spec k n) end; [reflexivity|lia]. }
    cbn [rbind fst snd]. rewrite IH.
    match goal with |- context [(?m <? ?n)%nat] => destruct (Nat.ltb_spec m n) end; match goal with |- context [(?m <? ?n)%nat] => destruct (Nat.ltb_spec m n) end; try lia; cbn [rbind fst snd]; [reflexivity|].
    do 3 f_equal. lia.
Qed.
Lemma read_records_ok host big ps : Forall prop_ok ps -> forall rows k rest, Forall (fun row => Forall2 datum_fits ps row) rows ->
  let enc := concat (map (stored_row big ps) rows) in
  read_records host big ps (length rows) (firstn k (enc ++ rest)) = if (k <? length enc)%nat then Fail EValue else Ok (rows, firstn (k - length enc) rest).
Proof.
  intros Hp. induction rows as [|row rows IH]; intros k rest H enc.
  - cbn. rewrite Nat.sub_0_r. reflexivity.
  - apply Forall_cons_iff in H as [Hr H]. unfold enc. cbn [map concat length read_records]. rewrite <- app_assoc, read_values_ok by auto. rewrite app_length.
    destruct (Nat.ltb_spec k (length (stored_row big ps row))) as [C|C].
    { match goal with |- context [(k <? ?n)%nat] => destruct (Nat.ltb_spec k n) end; [reflexivity|lia]. }
    cbn [rbind fst snd]. rewrite IH by auto. 
    match goal with |- context [(?m <? ?n)%nat] => destruct (Nat.ltb_spec m n) end; match goal with |- context [(?m <? ?n)%nat] => destruct (Nat.ltb_spec m n) end; try lia; cbn [rbind fst snd]; [reflexivity|].
    do 3 f_equal. lia.
Qed.

(* ---- elements ---- *)
Definition one_of (d : datum) : num := match d with One v => v | Many _ => Whole 0 end.
Definition list_of (row : list datum) : list num := match row with [Many vs] => vs | _ => [] end.
Definition uniform (rows : list (list num)) : bool := match rows with r :: rows => same_len (length r) rows | [] => true end.
Definition expected (e : element) (rows : list (list datum)) : edata :=
  match rows with
  | [] => Nothing
  | _ => if is_constant_type e then Parts [map (map one_of) rows]
         else if is_fixed e then Parts (split_nums (runs (map p_type (e_props e))) (map (map one_of) rows))
         else match single_list e with
              | Some _ => if uniform (map list_of rows) then Array (map list_of rows) else Rows rows
              | None => Rows rows
              end
  end.
Lemma is_fixed_iff e : is_fixed e = true <-> Forall (fun p => p_list p = None) (e_props e).
Proof.
  unfold is_fixed. rewrite forallb_forall, Forall_forall. split; intros H p Hp; specialize (H p Hp); destruct (p_list p); easy.
Qed.
Lemma fixed_row ps row : Forall (fun p => p_list p = None) ps -> Forall2 datum_fits ps row ->
  Forall2 fits (map p_type ps) (map one_of row) /\ forall big, stored_row big ps row = stored_nums big (map p_type ps) (map one_of row).
Proof.
  intros Hl H. induction H as [|p d ps row Hd H IH]; [split; [constructor|reflexivity]|]. apply Forall_cons_iff in Hl as [Hp Hl].
  destruct (IH Hl) as [I1 I2]. unfold datum_fits in Hd. rewrite Hp in Hd. destruct d as [v|]; [|easy]. split.
  - cbn. constructor; auto.
  - intros big. specialize (I2 big). unfold stored_row, stored_nums in *. cbn. now rewrite I2.
Qed.
Lemma same_fits t u v : t_size t = t_size u -> t_kind t = t_kind u -> fits t v -> fits u v.
Proof. intros E1 E2. unfold fits. now rewrite E1, E2. Qed.
Lemma same_stored big t u v : t_size t = t_size u -> stored big t v = stored big u v.
Proof. intros E1. unfold stored. now rewrite E1. Qed.
Lemma type_eqb_iff a b : type_eqb a b = true <-> t_size a = t_size b /\ t_kind a = t_kind b.
Proof. unfold type_eqb. rewrite andb_true_iff, Nat.eqb_eq. split; intros [H1 H2]; split; auto; destruct (t_kind a), (t_kind b); easy. Qed.
Lemma read_binary_ok host big e rows k rest : Forall prop_ok (e_props e) -> e_props e <> [] -> e_count e = Z.of_nat (length rows) ->
  Forall (fun row => Forall2 datum_fits (e_props e) row) rows ->
  let enc := concat (map (stored_row big (e_props e)) rows) in
  read_binary host big e (firstn k (enc ++ rest)) = if (k <? length enc)%nat then Fail EValue else Ok (expected e rows, firstn (k - length enc) rest).
Proof.
  intros Hp H0 Hc H enc. unfold read_binary. rewrite Hc.
  assert (Hne : rows = [] \/ rows <> []) by (destruct rows; [now left|now right]).
  destruct Hne as [->|Hne]. { cbn. rewrite Nat.sub_0_r. reflexivity. }
  assert (Hn : Z.of_nat (length rows) <> 0) by (clear - Hne; destruct rows; cbn; [easy|lia]).
  apply Z.eqb_neq in Hn. rewrite Hn. assert (Hn' : (Z.of_nat (length rows) <? 0) = false) by (apply Z.ltb_ge; lia). rewrite Hn', Nat2Z.id.
  assert (Hex : expected e rows = if is_constant_type e then Parts [map (map one_of) rows]
         else if is_fixed e then Parts (split_nums (runs (map p_type (e_props e))) (map (map one_of) rows))
         else match single_list e with
              | Some _ => if uniform (map list_of rows) then Array (map list_of rows) else Rows rows
              | None => Rows rows
              end) by (clear - Hne; destruct rows; [easy|reflexivity]). rewrite Hex. clear Hex.
  destruct (is_constant_type e) eqn:Ec.
  - unfold is_constant_type in Ec. apply andb_prop in Ec as [Ef Ec]. apply is_fixed_iff in Ef. destruct (e_props e) as [|p ps] eqn:Ep; [easy|].
    rewrite forallb_forall in Ec. assert (Hpt : In (p_type p) standard_types) by (apply Forall_cons_iff in Hp as [[Hp _] _]; exact Hp).
    assert (Hrow : forall row, In row rows -> length (map one_of row) = length (p :: ps) /\ Forall (fits (p_type p)) (map one_of row) /\ stored_row big (p :: ps) row = concat (map (stored big (p_type p)) (map one_of row))).
    { intros row Hr. rewrite Forall_forall in H. destruct (fixed_row _ _ Ef (H row Hr)) as [F1 F2]. split; [rewrite <- (Base.Forall2_length _ _ _ F1); apply map_length|].
      rewrite (F2 big). clear F2 H. assert (Ets : forall t, In t (map p_type (p :: ps)) -> t_size t = t_size (p_type p) /\ t_kind t = t_kind (p_type p)).
      { intros t Ht. apply in_map_iff in Ht as (q & <- & Hq). apply type_eqb_iff. now apply Ec. }
      revert F1 Ets. generalize (map p_type (p :: ps)) (map one_of row). clear. induction 1 as [|t v ts vs Hv F IH]; intros Ets; [split; [constructor|reflexivity]|].
      destruct (Ets t (or_introl eq_refl)) as [A B]. destruct IH as [I1 I2]; [intros; apply Ets; now right|]. split.
      - constructor; auto. eapply same_fits; eauto.
      - unfold stored_nums in *. cbn. rewrite I2. f_equal. now apply same_stored. }
    assert (Ee : enc = concat (map (fun r => concat (map (stored big (p_type p)) r)) (map (map one_of) rows))).
    { unfold enc. rewrite map_map. f_equal. apply map_ext_in. intros row Hr. apply Hrow, Hr. }
    pose proof (read_fixed_ok host big (p_type p) (length (p :: ps)) (map (map one_of) rows) k rest (size_pos _ Hpt)) as RF. cbv zeta in RF. rewrite <- Ee, map_length in RF.
    rewrite RF. 2: { apply Forall_map, Forall_forall. intros row Hr. destruct (Hrow row Hr) as (A & B & _). auto. }
    destruct (k <? length enc)%nat; reflexivity.
  - destruct (is_fixed e) eqn:Ef.
    + apply is_fixed_iff in Ef. assert (Hts : Forall (fun t => In t standard_types) (map p_type (e_props e))).
      { apply Forall_map. eapply Forall_impl; [|exact Hp]. now intros q []. }
      assert (Ee : enc = concat (map (stored_nums big (map p_type (e_props e))) (map (map one_of) rows))).
      { unfold enc. rewrite map_map. f_equal. apply map_ext_in. intros row Hr. rewrite Forall_forall in H. apply (fixed_row _ _ Ef (H row Hr)). }
      pose proof (read_nolists_ok host big (map p_type (e_props e)) (map (map one_of) rows) k rest Hts) as RF. cbv zeta in RF. rewrite <- Ee, map_length in RF.
      rewrite RF. 2: { apply Forall_map. eapply Forall_impl; [|exact H]. intros row Hr. apply (fixed_row _ _ Ef Hr). }
      destruct (k <? length enc)%nat; reflexivity.
    + assert (Hgen : (r <- read_records host big (e_props e) (length rows) (firstn k (enc ++ rest)) ;; Ok (match fst r with [] => Nothing | rows => Rows rows end, snd r)) =
                     if (k <? length enc)%nat then Fail EValue else Ok (Rows rows, firstn (k - length enc) rest)).
      { pose proof (read_records_ok host big (e_props e) Hp rows k rest H) as RR. cbv zeta in RR. fold enc in RR. rewrite RR.
        destruct (k <? length enc)%nat; [reflexivity|]. cbn [rbind fst snd]. clear - Hne. destruct rows; [easy|reflexivity]. }
      destruct (single_list e) as [[s t]|] eqn:Es; [|cbn [rbind]; exact Hgen].
      unfold single_list in Es. destruct (e_props e) as [|p [|? ?]] eqn:Ep; try easy. destruct (p_list p) as [s'|] eqn:El; [|easy]. injection Es as -> <-.
      apply Forall_cons_iff in Hp as [[Hp1 Hp2] _]. rewrite El in Hp2. apply size_pos in Hp1, Hp2.
      assert (Hrow : forall row, In row rows -> exists vs, row = [Many vs] /\ list_ok s (p_type p) vs).
      { intros row Hr. rewrite Forall_forall in H. specialize (H row Hr). inversion H as [|? d ? l' Hd HN]; subst. inversion HN; subst. unfold datum_fits in Hd. rewrite El in Hd.
        destruct d as [|vs]; [easy|]. exists vs. split; auto. }
      assert (Ee : enc = concat (map (stored_list big s (p_type p)) (map list_of rows))).
      { unfold enc. rewrite map_map. f_equal. apply map_ext_in. intros row Hr. destruct (Hrow row Hr) as (vs & -> & _). unfold stored_row, stored_list. cbn. now rewrite El, app_nil_r. }
      assert (HF : Forall (list_ok s (p_type p)) (map list_of rows)).
      { apply Forall_map, Forall_forall. intros row Hr. destruct (Hrow row Hr) as (vs & -> & Hv). exact Hv. }
      destruct (map list_of rows) as [|vs vss] eqn:Em. { destruct rows; easy. }
      pose proof (try_constant_ok host big s (p_type p) vs vss k rest Hp2 Hp1 HF) as TC. cbv zeta in TC. rewrite <- Ee in TC.
      replace (length (vs :: vss)) with (length rows) in TC by (rewrite <- Em; symmetry; apply map_length). destruct TC as [T1 T2]. cbn [uniform].
      destruct (same_len (length vs) vss).
      * rewrite (T1 eq_refl). destruct (k <? length enc)%nat; reflexivity.
      * destruct (T2 eq_refl) as [-> | [C ->]]; cbn [rbind]; [exact Hgen|]. apply Nat.ltb_lt in C. now rewrite C.
Qed.
Lemma elements_binary_ok host big : forall es k extra acc, Forall (good_element datum_fits) es ->
  elements_binary host big (map fst es) (firstn k (binary_data big es ++ extra)) acc =
  if (k <? length (binary_data big es))%nat then Fail EValue
  else if blank (firstn (k - length (binary_data big es)) extra) then Ok (rev (map (fun er => (e_name (fst er), expected (fst er) (snd er))) es) ++ acc) else Fail EValue.
Proof.
  induction es as [|[e rows] es IH]; intros k extra acc H.
  - cbn. now rewrite Nat.sub_0_r.
  - apply Forall_cons_iff in H as [(G1 & G2 & G3 & G4 & G5 & G6) H]. cbn [fst snd] in *. unfold binary_data in *. cbn [map concat fst snd elements_binary].
    rewrite <- app_assoc.
    pose proof (read_binary_ok host big e rows k (concat (map (fun er => concat (map (stored_row big (e_props (fst er))) (snd er))) es) ++ extra)) as RB. cbv zeta in RB.
    rewrite RB; auto. 2: { eapply Forall_impl; [|exact G5]. intros p (_ & P2 & P3). split; auto. }
    rewrite app_length. destruct (Nat.ltb_spec k (length (concat (map (stored_row big (e_props e)) rows)))) as [C|C].
    { match goal with |- context [(k <? ?n)%nat] => destruct (Nat.ltb_spec k n) end; [reflexivity|lia]. }
    cbn [rbind fst snd]. rewrite IH by auto. cbn [rev]. rewrite <- app_assoc. rewrite Nat.sub_add_distr.
    match goal with |- context [(?m <? ?n)%nat] => destruct (Nat.ltb_spec m n) end; match goal with |- context [(?m <? ?n)%nat] => destruct (Nat.ltb_spec m n) end; try lia; reflexivity.
Qed.
