From Verif Require Import Base RBase Reduce.
Local Open Scope R_scope.

Lemma put_same {A} (f : nat -> A) i x : put f i x i = x.
Proof. unfold put. rewrite Nat.eqb_refl. reflexivity. Qed.
Lemma put_other {A} (f : nat -> A) i j x : j <> i -> put f i x j = f j.
Proof. intros H. unfold put. destruct (j =? i)%nat eqn:E; [apply Nat.eqb_eq in E; contradiction|reflexivity]. Qed.

Section Key.
Variable maximum : bool.
Definition key (x : R) : R := if maximum then - x else x.
Lemma replaces_spec a b : replaces maximum a b = true <-> key a < key b.
Proof. unfold replaces, key. destruct maximum; destruct (Rltb_spec b a); destruct (Rltb_spec a b); split; intros; try lra; try discriminate; reflexivity. Qed.

Section Phase.
Context (s active n : nat) (prog : list act) (m0 : mem).
Context (Hs : (0 < s)%nat) (Hsa : (s <= active)%nat) (Han : (active + s <= n)%nat) (Hprog : prog = value_first \/ prog = index_first).
Notation D := (mval m0).
Notation I := (midx m0).
Definition class (p : nat) (x : R) : Prop := exists q, (q < n)%nat /\ (q mod s = p mod s)%nat /\ x = D q.
Definition least (t : nat) : Prop := forall x, class t x -> key (D t) <= key x \/ key (D (t + s)%nat) <= key x.
Context (Hleast : forall t, (t < s)%nat -> least t).

Definition waiting (l : lane) : Prop := todo l = prog \/ todo l = tl prog \/ todo l = tl (tl prog) \/ todo l = [].
(* the partner wins *)
Definition winning (m : mem) (l : lane) (t : nat) : Prop :=
  rmine l = D t /\ 
  ((todo l = prog /\ mval m t = D t /\ midx m t = I t) \/
   (todo l = tl prog /\ mval m t = D t /\ midx m t = I t) \/
   (todo l = tl (tl prog) /\ rother l = D (t + s)%nat /\ mval m t = D t /\ midx m t = I t) \/
   (todo l = tl (tl (tl prog)) /\ mval m t = D t /\ midx m t = I t) \/
   (prog = value_first /\
     ((todo l = [StoreVal; LoadIdx; StoreIdx] /\ rval l = D (t + s)%nat /\ midx m t = I t) \/
      (todo l = [LoadIdx; StoreIdx] /\ mval m t = D (t + s)%nat) \/
      (todo l = [StoreIdx] /\ mval m t = D (t + s)%nat /\ ridx l = I (t + s)%nat))) \/
   (prog = index_first /\
     ((todo l = [StoreIdx; LoadVal; StoreVal] /\ ridx l = I (t + s)%nat /\ mval m t = D t) \/
      (todo l = [LoadVal; StoreVal] /\ midx m t = I (t + s)%nat /\ mval m t = D t) \/
      (todo l = [StoreVal] /\ midx m t = I (t + s)%nat /\ rval l = D (t + s)%nat))) \/
   (todo l = [] /\ mval m t = D (t + s)%nat /\ midx m t = I (t + s)%nat)).

Record Inv (c : mem * (nat -> lane)) : Prop := {
  i_mem : forall p, (p < n)%nat -> class p (mval (fst c) p);
  i_reg : forall t, (t < active)%nat -> class t (rother (snd c t)) /\ class t (rval (snd c t));
  i_win : forall t, (t < s)%nat -> key (D (t + s)%nat) < key (D t) ->
    winning (fst c) (snd c t) t /\ mval (fst c) (t + s) = D (t + s)%nat /\ midx (fst c) (t + s) = I (t + s)%nat /\
    ((t + s < active)%nat -> waiting (snd c (t + s)%nat) /\ rmine (snd c (t + s)%nat) = D (t + s)%nat);
  i_lose : forall t, (t < s)%nat -> key (D t) <= key (D (t + s)%nat) ->
    mval (fst c) t = D t /\ midx (fst c) t = I t /\ waiting (snd c t) /\ rmine (snd c t) = D t }.

Lemma class_self p : (p < n)%nat -> class p (D p).
Proof. intros H. exists p. auto. Qed.
Lemma class_plus p x : class (p + s) x -> class p x.
Proof. intros (q & H & E & ->). exists q. split; [exact H|]. split; [|reflexivity]. rewrite E. replace (p + s)%nat with (p + 1 * s)%nat by lia. apply Nat.mod_add. lia. Qed.

Lemma inv_start : Inv (start prog m0).
Proof.
  unfold start. split; cbn [fst snd todo rmine rother rval].
  - intros p H. apply class_self. exact H.
  - intros t H. split; apply class_self; lia.
  - intros t H K. split; [split; [reflexivity|left; auto]|]. split; [reflexivity|]. split; [reflexivity|]. intros _. split; [left|]; reflexivity.
  - intros t H K. split; [reflexivity|]. split; [reflexivity|]. split; [left|]; reflexivity.
Qed.

(* a thread writes its own cells only *)
Lemma exec_frame u m l p : p <> u -> mval (fst (exec maximum s u m l)) p = mval m p /\ midx (fst (exec maximum s u m l)) p = midx m p.
Proof. intros H. unfold exec. destruct (todo l) as [|[] k]; cbn [fst mval midx]; rewrite ?put_other by exact H; auto. Qed.
(* a thread whose partner does not win writes nothing *)
Lemma exec_waiting u m l : waiting l -> mval m u = rmine l -> key (rmine l) <= key (rother l) ->
  fst (exec maximum s u m l) = m /\ waiting (snd (exec maximum s u m l)) /\ rmine (snd (exec maximum s u m l)) = rmine l.
Proof.
  intros Hw Hm Hk. assert (Hr : replaces maximum (rother l) (rmine l) = false). { destruct (replaces maximum (rother l) (rmine l)) eqn:E; [apply replaces_spec in E; lra|reflexivity]. }
  unfold waiting, exec in *. destruct Hprog as [E|E]; rewrite E in *; unfold value_first, index_first in *; cbn [tl] in *;
  (destruct Hw as [W|[W|[W|W]]]; rewrite W; cbn [fst snd todo rmine]; rewrite ?Hr; cbn [fst snd todo rmine]; auto 8).
Qed.
Lemma exec_class u m l : (u < active)%nat -> (forall p, (p < n)%nat -> class p (mval m p)) -> class u (rother l) -> class u (rval l) ->
  class u (mval (fst (exec maximum s u m l)) u) /\ class u (rother (snd (exec maximum s u m l))) /\ class u (rval (snd (exec maximum s u m l))).
Proof.
  intros Hu HM H1 H2. assert (HO : class u (mval m (u + s)%nat)) by (apply class_plus, HM; lia). assert (H0 : class u (mval m u)) by (apply HM; lia).
  unfold exec. destruct (todo l) as [|[] k]; cbn [fst snd mval rother rval]; rewrite ?put_same; auto.
Qed.
Lemma exec_winning u m l : (u < s)%nat -> key (D (u + s)%nat) < key (D u) -> winning m l u -> mval m (u + s)%nat = D (u + s)%nat -> midx m (u + s)%nat = I (u + s)%nat ->
  winning (fst (exec maximum s u m l)) (snd (exec maximum s u m l)) u.
Proof.
  intros Hu Hk (Hm & W) HD HI. assert (Hr : forall x, x = D (u + s)%nat -> replaces maximum x (D u) = true) by (intros x ->; apply replaces_spec; exact Hk).
  unfold winning, exec in *. destruct Hprog as [E|E]; rewrite E in *; unfold value_first, index_first in *; cbn [tl] in *.
  - destruct W as [(W & A & B)|[(W & A & B)|[(W & O & A & B)|[(W & A & B)|[(_ & [(W & A & B)|[(W & A)|(W & A & B)]])|[(X & _)|(W & A & B)]]]]]]; try discriminate X; rewrite W; cbn [fst snd todo rmine rother rval ridx mval midx]; rewrite ?put_same, ?Hm, ?(Hr _ O).
    + split; [exact A|]. tauto.
    + split; [reflexivity|]. auto 10.
    + split; [reflexivity|]. auto 10.
    + split; [reflexivity|]. do 4 right. left. auto 10.
    + split; [reflexivity|]. do 4 right. left. auto 10.
    + split; [reflexivity|]. do 4 right. left. auto 10.
    + split; [reflexivity|]. do 6 right. auto 10.
    + split; [reflexivity|]. do 6 right. auto 10.
  - destruct W as [(W & A & B)|[(W & A & B)|[(W & O & A & B)|[(W & A & B)|[(X & _)|[(_ & [(W & A & B)|[(W & A & B)|(W & A & B)]])|(W & A & B)]]]]]]; try discriminate X; rewrite W; cbn [fst snd todo rmine rother rval ridx mval midx]; rewrite ?put_same, ?Hm, ?(Hr _ O).
    + split; [exact A|]. tauto.
    + split; [reflexivity|]. auto 10.
    + split; [reflexivity|]. auto 10.
    + split; [reflexivity|]. do 5 right. left. auto 10.
    + split; [reflexivity|]. do 5 right. left. auto 10.
    + split; [reflexivity|]. do 5 right. left. auto 10.
    + split; [reflexivity|]. do 6 right. auto 10.
    + split; [reflexivity|]. do 6 right. auto 10.
Qed.

Lemma inv_tick c u : Inv c -> Inv (tick maximum s active c u).
Proof.
  intros H. unfold tick. destruct (u <? active)%nat eqn:Hu; [apply Nat.ltb_lt in Hu|exact H]. cbv zeta. destruct c as [m ls]. cbn [fst snd] in *.
  destruct H as [HM HR HW HL]. cbn [fst snd] in *. set (r := exec maximum s u m (ls u)).
  assert (HF : forall p, p <> u -> mval (fst r) p = mval m p /\ midx (fst r) p = midx m p) by (intros p; apply exec_frame).
  destruct (exec_class u m (ls u) Hu HM (proj1 (HR u Hu)) (proj2 (HR u Hu))) as (C1 & C2 & C3). fold r in C1, C2, C3.
  split; cbn [fst snd].
  - intros p Hp. destruct (Nat.eq_dec p u) as [->|N]; [exact C1|]. rewrite (proj1 (HF p N)). apply HM. exact Hp.
  - intros t Ht. destruct (Nat.eq_dec t u) as [->|N]; [rewrite put_same; auto|]. rewrite put_other by exact N. apply HR. exact Ht.
  - intros t Ht Hk. destruct (HW t Ht Hk) as (W & A & B & P). destruct (Nat.eq_dec t u) as [->|N].
    + rewrite put_same. rewrite (proj1 (HF (u + s)%nat ltac:(lia))), (proj2 (HF (u + s)%nat ltac:(lia))), put_other by lia. split; [apply exec_winning; assumption|]. auto.
    + rewrite put_other by exact N. destruct (Nat.eq_dec (t + s) u) as [E|N'].
      * rewrite E in *. destruct (P Hu) as (P1 & P2). assert (K : key (rmine (ls u)) <= key (rother (ls u))).
        { rewrite P2. destruct (Hleast t Ht (rother (ls u))) as [X|X].
          - apply class_plus. rewrite E. apply HR. exact Hu.
          - lra.
          - rewrite E in X. exact X. }
        destruct (exec_waiting u m (ls u) P1 ltac:(congruence) K) as (E1 & E2 & E3). fold r in E1, E2, E3. rewrite E1. rewrite put_same. split; [exact W|]. split; [exact A|]. split; [exact B|]. intros _. split; [exact E2|congruence].
      * rewrite !(put_other _ u (t + s)%nat) by exact N'. destruct (HF t N) as (F1 & F2). destruct (HF _ N') as (F3 & F4). rewrite F3, F4. split; [|auto]. unfold winning in *. rewrite F1, F2. exact W.
  - intros t Ht Hk. destruct (HL t Ht Hk) as (A & B & W & P). destruct (Nat.eq_dec t u) as [->|N].
    + assert (K : key (rmine (ls u)) <= key (rother (ls u))).
      { rewrite P. destruct (Hleast u Ht (rother (ls u)) (proj1 (HR u Hu))) as [X|X]; lra. }
      destruct (exec_waiting u m (ls u) W ltac:(congruence) K) as (E1 & E2 & E3). fold r in E1, E2, E3. rewrite E1, put_same. split; [exact A|]. split; [exact B|]. split; [exact E2|congruence].
    + rewrite put_other by exact N. destruct (HF t N) as (F1 & F2). rewrite F1, F2. auto.
Qed.
Lemma inv_run sched c : Inv c -> Inv (fold_left (tick maximum s active) sched c).
Proof. revert c. induction sched as [|u sched IH]; intros c H; [exact H|]. cbn [fold_left]. apply IH, inv_tick, H. Qed.

(* what a phase does, whatever the schedule *)
Lemma phase_spec m' : phase maximum s active prog m0 m' ->
  (forall p, (p < n)%nat -> class p (mval m' p)) /\
  forall t, (t < s)%nat -> (key (D (t + s)%nat) < key (D t) /\ mval m' t = D (t + s)%nat /\ midx m' t = I (t + s)%nat) \/
                           (key (D t) <= key (D (t + s)%nat) /\ mval m' t = D t /\ midx m' t = I t).
Proof.
  intros (sched & Hd & ->). pose proof (inv_run sched _ inv_start) as [HM _ HW HL]. unfold run_phase in *. split; [exact HM|]. intros t Ht.
  destruct (Rlt_le_dec (key (D (t + s)%nat)) (key (D t))) as [K|K]; [left|right]; (split; [exact K|]).
  - destruct (HW t Ht K) as ((_ & W) & _). specialize (Hd t ltac:(lia)). rewrite Hd in W. clear -W Hprog.
    destruct Hprog as [E|E]; rewrite E in *; unfold value_first, index_first in *; cbn [tl] in *;
    (destruct W as [(W & _)|[(W & _)|[(W & _)|[(W & _)|[(_ & [(W & _)|[(W & _)|(W & _)]])|[(_ & [(W & _)|[(W & _)|(W & _)]])|(_ & W)]]]]]]; try discriminate W; exact W).
  - destruct (HL t Ht K) as (A & B & _). auto.
Qed.
End Phase.

(* the state between phases: the cells t < s hold the best of their class modulo s *)
Record Best (n s : nat) (m0 m : mem) : Prop := {
  b_best : forall t q, (t < s)%nat -> (q < n)%nat -> (q mod s = t)%nat -> key (mval m t) <= key (mval m0 q);
  b_from : forall t, (t < s)%nat -> exists q, (q < n)%nat /\ (q mod s = t)%nat /\ mval m t = mval m0 q /\ midx m t = midx m0 q;
  b_now : forall t q, (t < s)%nat -> (q < n)%nat -> (q mod s = t)%nat -> key (mval m t) <= key (mval m q) }.

Lemma mod_double q s : (0 < s)%nat -> (q mod (2 * s) = q mod s \/ q mod (2 * s) = q mod s + s)%nat.
Proof.
  intros H. rewrite (Nat.mul_comm 2 s). rewrite Nat.mod_mul_r by lia. pose proof (Nat.mod_upper_bound (q / s) 2 ltac:(lia)). destruct (q / s mod 2)%nat as [|[|x]]; [left; lia|right; lia|lia].
Qed.
Lemma mod_of_double q s : (0 < s)%nat -> ((q mod (2 * s)) mod s = q mod s)%nat.
Proof. intros H. destruct (mod_double q s H) as [-> | ->]. - apply Nat.mod_mod. lia. - replace (q mod s + s)%nat with (q mod s + 1 * s)%nat by lia. rewrite Nat.mod_add by lia. apply Nat.mod_mod. lia. Qed.

Lemma best_phase n s active prog m0 m m' : (0 < s)%nat -> (s <= active)%nat -> (active + s <= n)%nat -> prog = value_first \/ prog = index_first ->
  Best n (2 * s) m0 m -> phase maximum s active prog m m' -> Best n s m0 m'.
Proof.
  intros Hs Ha Hn Hp [B1 B2 B3] HP.
  assert (HL : forall t, (t < s)%nat -> forall x, class s n m t x -> key (mval m t) <= key x \/ key (mval m (t + s)) <= key x).
  { intros t Ht x (q & Hq & E & ->). rewrite (Nat.mod_small t s Ht) in E. destruct (mod_double q s Hs) as [X|X]; rewrite E in X; [left|right]; apply B3; try assumption; lia. }
  destruct (phase_spec s active n prog m Hs Ha Hn Hp HL m' HP) as (C & S').
  assert (K : forall t, (t < s)%nat -> key (mval m' t) <= key (mval m t) /\ key (mval m' t) <= key (mval m (t + s))).
  { intros t Ht. destruct (S' t Ht) as [(K & -> & _)|(K & -> & _)]; lra. }
  split.
  - intros t q Ht Hq E. destruct (K t Ht) as (K1 & K2). destruct (mod_double q s Hs) as [X|X]; rewrite E in X; [pose proof (B1 t q ltac:(lia) Hq X)|pose proof (B1 (t + s)%nat q ltac:(lia) Hq X)]; lra.
  - intros t Ht. destruct (S' t Ht) as [(_ & -> & ->)|(_ & -> & ->)].
    + destruct (B2 (t + s)%nat ltac:(lia)) as (q & Hq & E & V). exists q. split; [exact Hq|]. split; [|exact V]. rewrite <- (mod_of_double q s Hs), E. replace (t + s)%nat with (t + 1 * s)%nat by lia. rewrite Nat.mod_add by lia. apply Nat.mod_small. exact Ht.
    + destruct (B2 t ltac:(lia)) as (q & Hq & E & V). exists q. split; [exact Hq|]. split; [|exact V]. rewrite <- (mod_of_double q s Hs), E. apply Nat.mod_small. exact Ht.
  - intros t q Ht Hq E. destruct (C q Hq) as (q' & Hq' & E' & ->). destruct (K t Ht) as (K1 & K2). destruct (HL t Ht (mval m q')) as [X|X]; [|lra|lra]. exists q'. split; [exact Hq'|]. split; [|reflexivity]. rewrite E', E. symmetry. apply Nat.mod_small. exact Ht.
Qed.
Lemma best_start n m : Best n n m m.
Proof.
  split.
  - intros t q Ht Hq E. rewrite Nat.mod_small in E by exact Hq. subst. lra.
  - intros t Ht. exists t. rewrite Nat.mod_small by exact Ht. auto.
  - intros t q Ht Hq E. rewrite Nat.mod_small in E by exact Hq. subst. lra.
Qed.
Lemma best_warp n prog m0 m m' : (64 <= n)%nat -> prog = value_first \/ prog = index_first -> Best n 64 m0 m -> phases maximum (warp_phases prog) m m' -> Best n 1 m0 m'.
Proof.
  intros Hn Hp B H. unfold warp_phases in H. cbn [map] in H.
  repeat match goal with X : phases _ (_ :: _) _ _ |- _ => inversion X; subst; clear X end. match goal with X : phases _ [] _ _ |- _ => inversion X; subst; clear X end.
  repeat match goal with X : phase _ ?s 32 _ _ _ |- _ => apply (best_phase n s 32 prog m0) in X; [|lia|lia|lia|exact Hp|assumption] end. assumption.
Qed.
Lemma best_loop k m0 ps m m' : forall n, (2 ^ k * 64 <= n)%nat -> Best n (2 ^ k * 64) m0 m -> phases maximum (loop_phases k ++ ps) m m' ->
  exists m1, Best n 64 m0 m1 /\ phases maximum ps m1 m'.
Proof.
  revert m. induction k as [|k IH]; intros m n Hn B H.
  - exists m. auto.
  - cbn [loop_phases app] in H. inversion H; subst; clear H. rewrite Nat.pow_succ_r' in *. match goal with X : phase _ _ _ _ _ _ |- _ => apply (best_phase n _ _ _ m0) in X; [apply (IH _ n ltac:(lia) X); assumption| | | |left; reflexivity|] end.
    + clear. pose proof (Nat.pow_nonzero 2 k ltac:(lia)). lia.
    + lia.
    + lia.
    + rewrite Nat.mul_assoc. exact B.
Qed.
Theorem block_spec k m m' : block_reduce maximum k m m' -> Best (2 ^ k * 64) 1 m m'.
Proof.
  intros H. destruct (best_loop k m _ m m' (2 ^ k * 64) (le_n _) (best_start _ m) H) as (m1 & B & P). apply (best_warp _ (warp_order maximum) m m1 m').
  - pose proof (Nat.pow_nonzero 2 k ltac:(lia)). lia.
  - unfold warp_order. destruct maximum; auto.
  - exact B.
  - exact P.
Qed.

(* every phase can be finished: each thread in turn *)
Lemma run_alone s active t c : (t < active)%nat -> (length (todo (snd c t)) <= 7)%nat ->
  let c' := fold_left (tick maximum s active) (repeat t 7) c in todo (snd c' t) = [] /\ forall u, u <> t -> snd c' u = snd c u.
Proof.
  intros Ht. enough (G : forall k c, (length (todo (snd c t)) <= k)%nat -> let c' := fold_left (tick maximum s active) (repeat t k) c in todo (snd c' t) = [] /\ forall u, u <> t -> snd c' u = snd c u) by (apply G).
  clear c. induction k as [|k IH]; intros c Hl; cbn [repeat fold_left].
  - split; [|reflexivity]. destruct (todo (snd c t)); [reflexivity|cbn in Hl; lia].
  - specialize (IH (tick maximum s active c t)). cbv zeta in *.
    assert (E1 : (length (todo (snd (tick maximum s active c t) t)) <= k)%nat).
    { unfold tick. rewrite (proj2 (Nat.ltb_lt t active)) by exact Ht. cbv zeta. cbn [snd]. rewrite put_same. unfold exec. destruct (todo (snd c t)) as [|[] l] eqn:E; cbn [snd todo length] in *; try lia; [rewrite E; cbn; lia|]. destruct (replaces maximum _ _); cbn [length]; lia. }
    destruct (IH E1) as (A & B). split; [exact A|]. intros u Hu. rewrite (B u Hu). unfold tick. rewrite (proj2 (Nat.ltb_lt t active)) by exact Ht. cbv zeta. cbn [snd]. apply put_other. exact Hu.
Qed.
Definition turns (active : nat) : list nat := flat_map (fun t => repeat t 7) (seq 0 active).
Lemma turns_done s active prog m k : (length prog <= 7)%nat -> (k <= active)%nat ->
  let c := run_phase maximum s active prog m (turns k) in (forall t, (t < k)%nat -> todo (snd c t) = []) /\ (forall t, (k <= t)%nat -> todo (snd c t) = prog).
Proof.
  intros Hl. induction k as [|k IH]; intros Hk.
  - cbn. split; [intros; lia|reflexivity].
  - destruct (IH ltac:(lia)) as (A & B). unfold run_phase, turns in *. rewrite seq_S, flat_map_app. cbn [Nat.add flat_map]. rewrite app_nil_r. cbv zeta in *. rewrite fold_left_app. set (c := fold_left (tick maximum s active) (flat_map _ (seq 0 k)) (start prog m)) in *.
    destruct (run_alone s active k c ltac:(lia)) as (A' & B'); [rewrite B by lia; exact Hl|]. split.
    + intros t Ht. destruct (Nat.eq_dec t k) as [->|N]; [exact A'|]. rewrite B' by exact N. apply A. lia.
    + intros t Ht. rewrite B' by lia. apply B. lia.
Qed.
(* the reduction in which the threads take turns *)
Definition phases_in_turn (ps : list (nat * nat * list act)) (m : mem) : mem :=
  fold_left (fun m p => fst (run_phase maximum (fst (fst p)) (snd (fst p)) (snd p) m (turns (snd (fst p))))) ps m.
Lemma phases_in_turn_ok ps m : Forall (fun p => (length (snd p) <= 7)%nat) ps -> phases maximum ps m (phases_in_turn ps m).
Proof.
  intros H. revert m. induction H as [|[[s a] p] ps Hp _ IH]; intros m; [constructor|]. unfold phases_in_turn. cbn [fold_left fst snd]. econstructor; [|apply IH]. exists (turns a). split; [|reflexivity]. intros t Ht. exact (proj1 (turns_done s a p m a Hp (le_n _)) t Ht).
Qed.
Definition block_in_turn (k : nat) : mem -> mem := phases_in_turn (loop_phases k ++ warp_phases (warp_order maximum)).
Lemma block_in_turn_ok k m : block_reduce maximum k m (block_in_turn k m).
Proof.
  apply phases_in_turn_ok. rewrite Forall_app. split.
  - induction k as [|k IH]; cbn [loop_phases]; [apply Forall_nil|apply Forall_cons; [cbn; lia|exact IH]].
  - unfold warp_phases. apply Forall_map. apply Forall_forall. intros x _. cbn [snd]. unfold warp_order. destruct maximum; cbn; lia.
Qed.
Lemma block_exists k m : exists m', block_reduce maximum k m m'.
Proof. exists (block_in_turn k m). apply block_in_turn_ok. Qed.
End Key.

Theorem block_min k m m' : block_reduce false k m m' ->
  (forall q, (q < 2 ^ k * 64)%nat -> mval m' 0 <= mval m q) /\ exists q, (q < 2 ^ k * 64)%nat /\ mval m' 0 = mval m q /\ midx m' 0 = midx m q.
Proof.
  intros H. apply block_spec in H. destruct H as [B1 B2 _]. split.
  - intros q Hq. exact (B1 0%nat q (le_n _) Hq (Nat.mod_1_r q)).
  - destruct (B2 0%nat (le_n _)) as (q & Hq & _ & V). exists q. auto.
Qed.
Theorem block_max k m m' : block_reduce true k m m' ->
  (forall q, (q < 2 ^ k * 64)%nat -> mval m q <= mval m' 0) /\ exists q, (q < 2 ^ k * 64)%nat /\ mval m' 0 = mval m q /\ midx m' 0 = midx m q.
Proof.
  intros H. apply block_spec in H. destruct H as [B1 B2 _]. split.
  - intros q Hq. pose proof (B1 0%nat q (le_n _) Hq (Nat.mod_1_r q)) as B. unfold key in B. lra.
  - destruct (B2 0%nat (le_n _)) as (q & Hq & _ & V). exists q. auto.
Qed.
