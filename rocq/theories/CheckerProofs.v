From Coq Require Import List Arith ZArith Bool Lia.
From Verif Require Import Base Checker CheckerSpec.
Import ListNotations.

Lemma nth_flat {A B} (f : A -> list B) m : forall l a b x, (forall y, length (f y) = m) -> nth_error l a = Some x -> b < m ->
  nth_error (flat_map f l) (a * m + b) = nth_error (f x) b.
Proof.
  induction l as [|y l IH]; intros a b x L N B0; [destruct a; discriminate|]. cbn [flat_map]. destruct a as [|a]; cbn in N.
  - injection N as ->. cbn [Nat.mul Nat.add]. apply nth_error_app1. rewrite L. exact B0.
  - rewrite nth_error_app2 by (rewrite L; lia). rewrite L. replace (S a * m + b - m) with (a * m + b) by lia. apply IH; assumption.
Qed.
Lemma flat_length {A B} (f : A -> list B) m l : (forall y, length (f y) = m) -> length (flat_map f l) = length l * m.
Proof. intros L. induction l as [|y l IH]; [reflexivity|]. cbn [flat_map length]. rewrite app_length, L, IH. lia. Qed.
Lemma nth_map_seq {A} (g : nat -> A) n i : i < n -> nth_error (map g (seq 0 n)) i = Some (g i).
Proof. intros L. apply (map_nth_error g). rewrite (nth_error_nth' _ 0) by (rewrite seq_length; exact L). now rewrite seq_nth. Qed.
Lemma nth_seq n i : i < n -> nth_error (seq 0 n) i = Some i.
Proof. intros L. rewrite <- (map_id (seq 0 n)). exact (nth_map_seq (fun i => i) n i L). Qed.

Lemma grid_nth r y x : y < 2 * r + 1 -> x < 2 * r + 1 ->
  nth_error (grid r) (y * (2 * r + 1) + x) = Some (Z.of_nat x - Z.of_nat r, Z.of_nat y - Z.of_nat r, 0)%Z.
Proof.
  intros Y X. unfold grid. rewrite (nth_flat _ (2 * r + 1) (axis r) y x (Z.of_nat y - Z.of_nat r)%Z).
  - unfold axis. rewrite map_map. exact (nth_map_seq (fun x => (Z.of_nat x - Z.of_nat r, Z.of_nat y - Z.of_nat r, 0)%Z) (2 * r + 1) x X).
  - intros z. unfold axis. rewrite !map_length, seq_length. reflexivity.
  - exact (nth_map_seq _ _ y Y).
  - exact X.
Qed.
Lemma grid_length r : length (grid r) = (2 * r + 1) * (2 * r + 1).
Proof.
  unfold grid. rewrite (flat_length _ (2 * r + 1)); unfold axis; [rewrite map_length, seq_length; reflexivity|].
  intros z. rewrite !map_length, seq_length. reflexivity.
Qed.
Definition upper (n v : nat) : nat * nat * nat := (v, v + 1, v + n + 1).
Definition lower (n v : nat) : nat * nat * nat := (v, v + n + 1, v + 1 + (n - 1)).
Lemma top_nth n v : v < n * (n - 1) -> nth_error (combine (top n) (bottom n)) v = Some (upper n v, lower n v).
Proof.
  intros V. unfold bottom. assert (T : nth_error (top n) v = Some (upper n v)) by exact (nth_map_seq _ _ v V). unfold lower.
  change (nth_error (combine (top n) (map (fun t => let '(a, b, c) := t in (a, c, b + (n - 1))) (top n))) v =
    Some (upper n v, let '(a, b, c) := upper n v in (a, c, b + (n - 1)))). revert T. generalize (upper n v) as u. revert v V. intros v _.
  revert v. induction (top n) as [|t l IH]; intros [|w] u T; try discriminate; cbn in T |- *; [|apply IH, T]. injection T as ->. reflexivity.
Qed.
Lemma faces_nth n v k : v < n * (n - 1) -> k < 2 -> nth_error (interleaved n) (v * 2 + k) = Some (if k =? 0 then upper n v else lower n v).
Proof.
  intros V K. unfold interleaved. rewrite (nth_flat _ 2 _ v k (upper n v, lower n v)); [|reflexivity|apply top_nth, V|exact K].
  destruct k as [|[|k]]; [reflexivity|reflexivity|lia].
Qed.
Lemma colours_nth {C} (c1 c2 : C) n v k : v < n * n -> k < 2 -> nth_error (all_colours c1 c2 n) (v * 2 + k) = Some (if Nat.even v then c1 else c2).
Proof.
  intros V K. unfold all_colours. rewrite nth_map_seq by nia. f_equal.
  destruct (Nat.even v) eqn:E.
  - apply Nat.even_spec in E. destruct E as [m ->]. replace ((2 * m * 2 + k) mod 4) with k.
    + destruct k as [|[|k]]; [reflexivity|reflexivity|lia].
    + replace (2 * m * 2 + k) with (k + m * 4) by lia. rewrite Nat.mod_add by lia. symmetry. apply Nat.mod_small. lia.
  - assert (O : Nat.odd v = true) by (unfold Nat.odd; rewrite E; reflexivity). apply Nat.odd_spec in O. destruct O as [m ->].
    replace (((2 * m + 1) * 2 + k) mod 4) with (2 + k).
    + destruct k as [|[|k]]; [reflexivity|reflexivity|lia].
    + replace ((2 * m + 1) * 2 + k) with (2 + k + m * 4) by lia. rewrite Nat.mod_add by lia. symmetry. apply Nat.mod_small. lia.
Qed.
Lemma range_nth n y x k : y < n - 1 -> x < n - 1 -> k < 2 -> nth_error (indexing_range n) ((y * (n - 1) + x) * 2 + k) = Some ((y * n + x) * 2 + k).
Proof.
  intros Y X K. unfold indexing_range. replace ((y * (n - 1) + x) * 2 + k) with (y * ((n - 1) * 2) + (x * 2 + k)) by lia.
  rewrite (nth_flat _ ((n - 1) * 2) _ y (x * 2 + k) y); [|intros z; rewrite (flat_length _ 2), seq_length; reflexivity|apply nth_seq, Y|nia].
  rewrite (nth_flat _ 2 _ x k x); [|reflexivity|apply nth_seq, X|exact K]. apply (nth_map_seq (fun k => (y * n + x) * 2 + k)), K.
Qed.
Lemma range_length n : length (indexing_range n) = (n - 1) * ((n - 1) * 2).
Proof.
  unfold indexing_range. rewrite (flat_length _ ((n - 1) * 2)), seq_length; [reflexivity|]. intros z. rewrite (flat_length _ 2), seq_length; reflexivity.
Qed.
Lemma range_in n i : In i (indexing_range n) -> exists y x k, y < n - 1 /\ x < n - 1 /\ k < 2 /\ i = (y * n + x) * 2 + k.
Proof.
  unfold indexing_range. rewrite in_flat_map. intros (y & Y & H). rewrite in_flat_map in H. destruct H as (x & X & H).
  apply in_map_iff in H. destruct H as (k & <- & K). apply in_seq in Y, X, K. exists y, x, k. repeat split; lia.
Qed.
Lemma rmap_ok {A B} (f : A -> result B) l : (forall x, In x l -> exists y, f x = Ok y) ->
  exists l', rmap f l = Ok l' /\ forall k x, nth_error l k = Some x -> exists y, f x = Ok y /\ nth_error l' k = Some y.
Proof.
  induction l as [|a l IH]; intros H.
  - exists []. split; [reflexivity|]. intros [|k] x N; discriminate.
  - destruct (H a (or_introl eq_refl)) as (b & E). destruct IH as (l' & R & N); [intros x X; apply H; right; exact X|].
    exists (b :: l'). cbn [rmap]. rewrite E. cbn [rbind]. rewrite R. split; [reflexivity|]. intros [|k] x K; cbn in K.
    + injection K as <-. exists b. split; [exact E|reflexivity].
    + exact (N k x K).
Qed.
Lemma even_cell r y x : Nat.even (y * (2 * r + 1) + x) = Z.even (Z.of_nat x - Z.of_nat r + (Z.of_nat y - Z.of_nat r)).
Proof.
  replace (Z.of_nat x - Z.of_nat r + (Z.of_nat y - Z.of_nat r))%Z with (Z.of_nat (y * (2 * r + 1) + x) + 2 * - (Z.of_nat r + Z.of_nat r * Z.of_nat y))%Z.
  - rewrite Z.even_add_mul_2. destruct (Nat.even (y * (2 * r + 1) + x)) eqn:E; symmetry.
    + apply Nat.even_spec in E. destruct E as [m ->]. apply Z.even_spec. exists (Z.of_nat m). lia.
    + assert (O : Nat.odd (y * (2 * r + 1) + x) = true) by (unfold Nat.odd; rewrite E; reflexivity). apply Nat.odd_spec in O. destruct O as [m ->].
      rewrite <- Z.negb_odd. replace (Z.odd _) with true; [reflexivity|]. symmetry. apply Z.odd_spec. exists (Z.of_nat m). lia.
  - rewrite Nat2Z.inj_add, Nat2Z.inj_mul. lia.
Qed.
Lemma board_ok {C} r (c1 c2 : C) : 1 <= r -> exists b, checkerboard (Z.of_nat r) c1 c2 = Ok b /\
  length (verts b) = (2 * r + 1) * (2 * r + 1) /\ length (faces b) = 2 * (2 * r * (2 * r)) /\ length (colours b) = 2 * (2 * r * (2 * r)) /\
  forall y x, y < 2 * r -> x < 2 * r -> let i := (Z.of_nat x - Z.of_nat r)%Z in let j := (Z.of_nat y - Z.of_nat r)%Z in
    square_at b (2 * (y * (2 * r) + x)) i j (if Z.even (i + j) then c1 else c2).
Proof.
  intros R0. set (n := 2 * r + 1). assert (N1 : n - 1 = 2 * r) by (unfold n; lia).
  destruct (rmap_ok (rget (interleaved n)) (indexing_range n)) as (fs & F1 & F2).
  { intros i I. destruct (range_in n i I) as (y & x & k & Y & X & K & ->). exists (if k =? 0 then upper n (y * n + x) else lower n (y * n + x)).
    apply rget_some, faces_nth; [nia|exact K]. }
  destruct (rmap_ok (rget (all_colours c1 c2 n)) (indexing_range n)) as (cs & G1 & G2).
  { intros i I. destruct (range_in n i I) as (y & x & k & Y & X & K & ->). exists (if Nat.even (y * n + x) then c1 else c2).
    apply rget_some, colours_nth; [nia|exact K]. }
  exists (Board (grid r) fs cs). split; [|split; [|split; [|split]]].
  - unfold checkerboard. destruct (Z.ltb_spec (Z.of_nat r) 1) as [L|_]; [lia|]. rewrite Nat2Z.id. fold n. rewrite F1. cbn [rbind]. rewrite G1. reflexivity.
  - apply grid_length.
  - cbn [faces]. rewrite (rmap_length _ _ _ F1), range_length, N1. lia.
  - cbn [colours]. rewrite (rmap_length _ _ _ G1), range_length, N1. lia.
  - intros y x Y X. cbv zeta. rewrite <- even_cell. fold n.
    assert (FK : forall k, k < 2 -> nth_error fs ((y * (2 * r) + x) * 2 + k) = Some (if k =? 0 then upper n (y * n + x) else lower n (y * n + x))).
    { intros k K. pose proof (range_nth n y x k ltac:(lia) ltac:(lia) K) as Q. rewrite N1 in Q. destruct (F2 _ _ Q) as (t & T & ->).
      apply rget_some in T. rewrite faces_nth in T; [congruence|nia|exact K]. }
    assert (GK : forall k, k < 2 -> nth_error cs ((y * (2 * r) + x) * 2 + k) = Some (if Nat.even (y * n + x) then c1 else c2)).
    { intros k K. pose proof (range_nth n y x k ltac:(lia) ltac:(lia) K) as Q. rewrite N1 in Q. destruct (G2 _ _ Q) as (t & T & ->).
      apply rget_some in T. rewrite colours_nth in T; [congruence|nia|exact K]. }
    assert (V00 : nth_error (grid r) (y * n + x) = Some (Z.of_nat x - Z.of_nat r, Z.of_nat y - Z.of_nat r, 0)%Z) by (apply grid_nth; lia).
    assert (V10 : nth_error (grid r) (y * n + x + 1) = Some (Z.of_nat x - Z.of_nat r + 1, Z.of_nat y - Z.of_nat r, 0)%Z).
    { replace (y * n + x + 1) with (y * n + (x + 1)) by lia. unfold n. rewrite grid_nth by lia. do 3 f_equal. lia. }
    assert (V11 : nth_error (grid r) (y * n + x + n + 1) = Some (Z.of_nat x - Z.of_nat r + 1, Z.of_nat y - Z.of_nat r + 1, 0)%Z).
    { replace (y * n + x + n + 1) with ((y + 1) * n + (x + 1)) by lia. unfold n. rewrite grid_nth by lia. do 3 f_equal; lia. }
    assert (V01 : nth_error (grid r) (y * n + x + 1 + (n - 1)) = Some (Z.of_nat x - Z.of_nat r, Z.of_nat y - Z.of_nat r + 1, 0)%Z).
    { replace (y * n + x + 1 + (n - 1)) with ((y + 1) * n + x) by lia. unfold n. rewrite grid_nth by lia. do 3 f_equal. lia. }
    replace (2 * (y * (2 * r) + x)) with ((y * (2 * r) + x) * 2 + 0) by lia. unfold square_at, triangle. cbn [faces verts colours].
    rewrite <- Nat.add_assoc. cbn [Nat.add]. rewrite (FK 0), (FK 1), (GK 0), (GK 1) by lia. cbn [Nat.eqb]. unfold upper, lower.
    rewrite V00, V10, V11, V01. repeat split; reflexivity.
Qed.
Lemma board_only {C} r (c1 c2 : C) b k i j c : 1 <= r -> checkerboard (Z.of_nat r) c1 c2 = Ok b -> square_at b k i j c ->
  (- Z.of_nat r <= i < Z.of_nat r)%Z /\ (- Z.of_nat r <= j < Z.of_nat r)%Z /\
  k = 2 * (Z.to_nat (j + Z.of_nat r) * (2 * r) + Z.to_nat (i + Z.of_nat r)) /\ c = if Z.even (i + j) then c1 else c2.
Proof.
  intros R0 E (T1 & T2 & K1 & K2). destruct (board_ok r c1 c2 R0) as (b' & E' & _ & _ & L & S0). rewrite E in E'. injection E' as <-.
  assert (K : k < 2 * (2 * r * (2 * r))) by (rewrite <- L; apply nth_error_Some; congruence).
  set (q := k / 2). assert (Kq : k = 2 * q + k mod 2) by (apply Nat.div_mod; lia). pose proof (Nat.mod_upper_bound k 2 ltac:(lia)) as K3.
  assert (Q : q < 2 * r * (2 * r)) by lia. set (y := q / (2 * r)). set (x := q mod (2 * r)).
  assert (Eq : q = y * (2 * r) + x) by (unfold y, x; rewrite (Nat.mul_comm _ (2 * r)); apply Nat.div_mod; lia).
  assert (X : x < 2 * r) by (apply Nat.mod_upper_bound; lia). assert (Y : y < 2 * r) by (apply Nat.div_lt_upper_bound; lia).
  destruct (S0 y x Y X) as (A1 & A2 & A3 & _). rewrite <- Eq in A1, A2, A3. destruct (k mod 2) as [|[|m]] eqn:Mk; [| |lia].
  - rewrite Nat.add_0_r in Kq. rewrite <- Kq in A1, A3. rewrite A1 in T1. injection T1 as Hi Hj _ _. rewrite A3 in K1. injection K1 as Hc.
    subst i j. split; [lia|]. split; [lia|]. split; [|symmetry; exact Hc]. rewrite Kq, Eq.
    replace (Z.to_nat (Z.of_nat y - Z.of_nat r + Z.of_nat r)) with y by lia. replace (Z.to_nat (Z.of_nat x - Z.of_nat r + Z.of_nat r)) with x by lia. reflexivity.
  - exfalso. rewrite <- Kq in A2. rewrite A2 in T1. inversion T1. lia.
Qed.
