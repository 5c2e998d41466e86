(* The samples, the configuration of a cell and the rows of the tables. *)
From Verif Require Import Base RBase Geom MarchingTables Marching MarchingSpec MarchingProofs.
Local Open Scope nat_scope.

Lemma rget_map_seq {A} (g : nat -> A) n i : i < n -> rget (map g (seq 0 n)) i = Ok (g i).
Proof.
  intros H. apply rget_some. rewrite (map_nth_error g i (seq 0 n) (d := i)); [reflexivity|]. rewrite (nth_error_nth' _ 0) by (rewrite seq_length; exact H). now rewrite seq_nth.
Qed.
Lemma sample_get D H W f p : in_grid D H W p -> vol_get (sample D H W f) p = Ok (at_point f p).
Proof.
  destruct p as [[x y] z]. intros (Hx & Hy & Hz). unfold vol_get, sample. rewrite rget_map_seq by exact Hz. cbn [rbind]. rewrite rget_map_seq by exact Hy. cbn [rbind]. now rewrite rget_map_seq by exact Hx.
Qed.
Lemma cubes_in D H W c : In c (cubes D H W) <-> (let '(x, y, z) := c in S x < W /\ S y < H /\ S z < D).
Proof.
  destruct c as [[x y] z]. unfold cubes. rewrite in_flat_map. split.
  - intros (z' & Hz & Hi). apply in_flat_map in Hi as (y' & Hy & Hi). apply in_map_iff in Hi as (x' & E & Hx). injection E as -> -> ->. apply in_seq in Hx, Hy, Hz. lia.
  - intros (Hx & Hy & Hz). exists z. split; [apply in_seq; lia|]. apply in_flat_map. exists y. split; [apply in_seq; lia|]. apply in_map_iff. exists x. split; [reflexivity|apply in_seq; lia].
Qed.
Lemma nodup_flat_map {A B} (g : A -> list B) l : NoDup l -> (forall a, In a l -> NoDup (g a)) -> (forall a a' b, In a l -> In a' l -> In b (g a) -> In b (g a') -> a = a') -> NoDup (flat_map g l).
Proof.
  induction l as [|a l IH]; intros Hn Hg Hd; cbn [flat_map]; [constructor|]. apply NoDup_cons_iff in Hn as [Ha Hn].
  assert (app_nodup : forall (u v : list B), NoDup u -> NoDup v -> (forall x, In x u -> ~ In x v) -> NoDup (u ++ v)).
  { induction u as [|x u IHu]; intros v Hu Hv Hx; [exact Hv|]. apply NoDup_cons_iff in Hu as [Hxu Hu]. cbn. constructor; [rewrite in_app_iff; intros [C|C]; [auto|exact (Hx x (or_introl eq_refl) C)]|]. apply IHu; auto. intros y Hy. apply Hx. now right. }
  apply app_nodup.
  - apply Hg. now left.
  - apply IH; [exact Hn| |]; intros; [apply Hg; now right|eapply Hd; eauto; now right].
  - intros x Hx Hx'. apply in_flat_map in Hx' as (a' & Ha' & Hx'). assert (a = a') by (apply (Hd a a' x); auto; [now left|now right]). now subst.
Qed.
Lemma cubes_nodup D H W : NoDup (cubes D H W).
Proof.
  apply nodup_flat_map; [apply seq_NoDup| |].
  - intros z _. apply nodup_flat_map; [apply seq_NoDup| |].
    + intros y _. apply FinFun.Injective_map_NoDup; [|apply seq_NoDup]. intros a b E. now injection E.
    + intros y y' c _ _ H1 H2. apply in_map_iff in H1 as (x & <- & _). apply in_map_iff in H2 as (x' & E & _). now injection E.
  - intros z z' c _ _ H1 H2. apply in_flat_map in H1 as (y & _ & H1). apply in_map_iff in H1 as (x & <- & _). apply in_flat_map in H2 as (y' & _ & H2). apply in_map_iff in H2 as (x' & E & _). now injection E.
Qed.

(* ---- local edges as links of the cell at the origin ---- *)
Definition vcorner (v : nat) : point := corner (0, 0, 0) v.
Definition loc (a : nat) : link := match a with
  | 0 => ((0, 0, 0), AxX) | 1 => ((1, 0, 0), AxZ) | 2 => ((0, 0, 1), AxX) | 3 => ((0, 0, 0), AxZ)
  | 4 => ((0, 1, 0), AxX) | 5 => ((1, 1, 0), AxZ) | 6 => ((0, 1, 1), AxX) | 7 => ((0, 1, 0), AxZ)
  | 8 => ((0, 0, 0), AxY) | 9 => ((1, 0, 0), AxY) | 10 => ((1, 0, 1), AxY) | _ => ((0, 0, 1), AxY) end.
Definition padd (c p : point) : point := let '(x, y, z) := c in let '(a, b, d) := p in (x + a, y + b, z + d).
Definition glob (c : point) (a : nat) : link := (padd c (fst (loc a)), snd (loc a)).
Lemma padd_0 p : padd (0, 0, 0) p = p. Proof. now destruct p as [[x y] z]. Qed.
Lemma corner_padd c v : corner c v = padd c (vcorner v). Proof. now destruct c as [[x y] z]. Qed.

Lemma lt12 a : a < 12 -> In a (seq 0 12). Proof. rewrite in_seq. lia. Qed.
Ltac each12 a Ha := apply lt12 in Ha; cbn [seq In] in Ha; repeat (destruct Ha as [<-|Ha]); [..|destruct Ha].
Lemma ends_ok c a : a < 12 -> ends EDGE_TO_VERTICES c a = Ok (near (glob c a), far (glob c a)).
Proof.
  destruct c as [[x y] z]. intros Ha. each12 a Ha; unfold near, far, glob; cbn; repeat (f_equal; try lia).
Qed.
(* the corner bits of a cell, by corner number *)
Definition below (f : field) (iso : R) (p : point) : bool := Rltb (at_point f p) iso.
Definition bits (f : field) (iso : R) (c : point) : list bool := map (fun v => below f iso (corner c v)) (seq 0 8).
Definition cfg (bs : list bool) : nat := fold_left (fun acc i => if nth (nth i INDEX 0) bs false then Nat.lor acc (Nat.shiftl 1 i) else acc) (seq 0 8) 0.
Lemma index8 i : i < 8 -> exists v, rget INDEX i = Ok v /\ v < 8 /\ nth i INDEX 0 = v.
Proof. intros H. assert (Hi : In i (seq 0 8)) by (apply in_seq; lia). cbn [seq In] in Hi. repeat (destruct Hi as [<-|Hi]; [eexists; split; [reflexivity|split; [lia|reflexivity]]|]). destruct Hi. Qed.
Lemma corner_grid D H W c v : In c (cubes D H W) -> v < 8 -> in_grid D H W (corner c v).
Proof.
  intros Hc Hv. apply cubes_in in Hc. destruct c as [[x y] z]. unfold corner, in_grid. assert (Hi : In v (seq 0 8)) by (apply in_seq; lia). cbn [seq In] in Hi. repeat (destruct Hi as [<-|Hi]; [cbn; lia|]). destruct Hi.
Qed.
Lemma nth_bits f iso c v : v < 8 -> nth v (bits f iso c) false = below f iso (corner c v).
Proof. intros H. unfold bits. rewrite (nth_indep _ false (below f iso (corner c 0))) by (rewrite map_length, seq_length; exact H). rewrite (map_nth (fun v => below f iso (corner c v))), seq_nth by exact H. reflexivity. Qed.
Lemma cube_index_ok D H W f iso c : In c (cubes D H W) -> cube_index INDEX (sample D H W f) iso c = Ok (cfg (bits f iso c)).
Proof.
  intros Hc. unfold cube_index, cfg.
  assert (A : forall l acc, (forall i, In i l -> i < 8) ->
    rfold (fun acc i => v <- rget INDEX i ;; val <- vol_get (sample D H W f) (corner c v) ;; Ok (if Rltb val iso then Nat.lor acc (Nat.shiftl 1 i) else acc)) l acc
    = Ok (fold_left (fun acc i => if nth (nth i INDEX 0) (bits f iso c) false then Nat.lor acc (Nat.shiftl 1 i) else acc) l acc)).
  { induction l as [|i l IH]; intros acc Hl; [reflexivity|]. cbn [rfold fold_left]. destruct (index8 i (Hl i (or_introl eq_refl))) as (v & E1 & Hv & E2). rewrite E1, E2. cbn [rbind]. rewrite sample_get by (apply corner_grid; assumption). cbn [rbind]. rewrite nth_bits by exact Hv. apply IH. intros j Hj. apply Hl. now right. }
  apply A. intros i Hi. apply in_seq in Hi. lia.
Qed.
Fixpoint bools (n : nat) : list (list bool) := match n with 0 => [[]] | S n => map (cons true) (bools n) ++ map (cons false) (bools n) end.
Lemma bools_all n bs : length bs = n -> In bs (bools n).
Proof. revert n. induction bs as [|[] bs IH]; intros [|n] H; try discriminate; cbn; [auto| |]; apply in_app_iff; [left|right]; apply in_map, IH; now injection H. Qed.
Lemma bits_len f iso c : length (bits f iso c) = 8. Proof. unfold bits. now rewrite map_length, seq_length. Qed.
Lemma check8 (P : list bool -> bool) : forallb P (bools 8) = true -> forall bs, length bs = 8 -> P bs = true.
Proof. intros H bs Hb. rewrite forallb_forall in H. apply H, bools_all, Hb. Qed.
Definition row (bs : list bool) : list nat := nth (cfg bs) FACE_TABLE [].
Definition bit_at (bs : list bool) (p : point) : bool := let '(x, y, z) := p in nth (x + 2 * y + 4 * z) bs false.
Definition crossb (bs : list bool) (a : nat) : bool := negb (eqb (bit_at bs (near (loc a))) (bit_at bs (far (loc a)))).
Fixpoint nodupb (l : list nat) : bool := match l with [] => true | x :: l => negb (existsb (Nat.eqb x) l) && nodupb l end.
Definition row_check (bs : list bool) : bool :=
  (cfg bs <? 256) && (length (row bs) mod 3 =? 0) && forallb (fun a => (a <? 12) && crossb bs a) (row bs)
  && forallb (fun a => negb (crossb bs a) || existsb (Nat.eqb a) (row bs)) (seq 0 12)
  && forallb (fun t => nodupb (list3 t)) (chunk3 (row bs)).
Lemma row_checked : forallb row_check (bools 8) = true. Proof. vm_compute. reflexivity. Qed.
Lemma table_len : length FACE_TABLE = 256. Proof. vm_compute. reflexivity. Qed.
Lemma row_get bs : length bs = 8 -> rget FACE_TABLE (cfg bs) = Ok (row bs).
Proof. intros H. pose proof (check8 _ row_checked bs H) as C. unfold row_check in C. rewrite !andb_true_iff in C. destruct C as ((((C & _) & _) & _) & _). apply Nat.ltb_lt in C. apply rget_some, nth_error_nth'. now rewrite table_len. Qed.
Lemma row_facts bs : length bs = 8 -> (exists m, length (row bs) = 3 * m) /\ (forall a, In a (row bs) <-> a < 12 /\ crossb bs a = true) /\ (forall t, In t (chunk3 (row bs)) -> NoDup (list3 t)).
Proof.
  intros H. pose proof (check8 _ row_checked bs H) as C. unfold row_check in C. rewrite !andb_true_iff in C. destruct C as ((((_ & C1) & C2) & C3) & C4). apply Nat.eqb_eq in C1. rewrite forallb_forall in C2, C3, C4. split; [|split].
  - exists (length (row bs) / 3). pose proof (Nat.div_mod (length (row bs)) 3 ltac:(lia)). lia.
  - intros a. split.
    + intros Ha. apply C2, andb_true_iff in Ha as [Ha1 Ha2]. apply Nat.ltb_lt in Ha1. auto.
    + intros (Ha & Hc). assert (Hs : In a (seq 0 12)) by (apply in_seq; lia). apply C3 in Hs. rewrite Hc in Hs. cbn [negb orb] in Hs. apply existsb_exists in Hs as (b & Hb & E). apply Nat.eqb_eq in E. now subst.
  - intros [[p q] r] Ht. apply C4 in Ht. cbn in Ht. rewrite !orb_false_r, !andb_true_iff, !negb_true_iff in Ht. cbn. destruct Ht as (E1 & E2 & _). apply orb_false_iff in E1 as (E0 & E1). apply Nat.eqb_neq in E0, E1, E2. repeat constructor; cbn; intuition.
Qed.
Lemma glob_ends c a : near (glob c a) = padd c (near (loc a)) /\ far (glob c a) = padd c (far (loc a)).
Proof. split; [reflexivity|]. unfold far, glob. cbn [fst snd]. destruct c as [[x y] z]. destruct (loc a) as [[[u v] w] []]; cbn; repeat (f_equal; try lia). Qed.
Lemma bit_at_ok f iso c p : (let '(x, y, z) := p in x < 2 /\ y < 2 /\ z < 2) -> bit_at (bits f iso c) p = below f iso (padd c p).
Proof.
  destruct p as [[x y] z]. intros (Hx & Hy & Hz). unfold bit_at. rewrite nth_bits by lia. rewrite corner_padd. do 2 f_equal.
  destruct x as [|[|]], y as [|[|]], z as [|[|]]; try lia; reflexivity.
Qed.
Lemma loc_small a : a < 12 -> (let '(x, y, z) := near (loc a) in x < 2 /\ y < 2 /\ z < 2) /\ (let '(x, y, z) := far (loc a) in x < 2 /\ y < 2 /\ z < 2).
Proof. intros Ha. each12 a Ha; cbn; lia. Qed.
Lemma grid_pt D H W c p : In c (cubes D H W) -> (let '(x, y, z) := p in x < 2 /\ y < 2 /\ z < 2) -> in_grid D H W (padd c p).
Proof. intros Hc. apply cubes_in in Hc. destruct c as [[x y] z], p as [[u v] w]. cbn. lia. Qed.
Definition linkG (D H W : nat) (e : link) : Prop := in_grid D H W (near e) /\ in_grid D H W (far e).
Lemma glob_grid D H W c a : In c (cubes D H W) -> a < 12 -> linkG D H W (glob c a).
Proof. intros Hc Ha. destruct (glob_ends c a) as [E1 E2]. destruct (loc_small a Ha). split; [rewrite E1|rewrite E2]; apply grid_pt; assumption. Qed.
Lemma crossb_ok D H W f iso c a : In c (cubes D H W) -> a < 12 -> crossb (bits f iso c) a = true <-> crossing D H W f iso (glob c a).
Proof.
  intros Hc Ha. unfold crossb. destruct (loc_small a Ha) as [S1 S2]. rewrite !bit_at_ok by assumption. destruct (glob_ends c a) as [E1 E2]. unfold crossing. rewrite E1, E2. unfold below.
  pose proof (grid_pt D H W c _ Hc S1) as G1. pose proof (grid_pt D H W c _ Hc S2) as G2.
  destruct (Rltb_spec (at_point f (padd c (near (loc a)))) iso), (Rltb_spec (at_point f (padd c (far (loc a)))) iso); cbn; split; intros; try discriminate; try tauto.
Qed.
(* the links of a row *)
Definition links_of (f : field) (iso : R) (c : point) : list link := map (glob c) (row (bits f iso c)).
Lemma glob_inj c a b : a < 12 -> b < 12 -> glob c a = glob c b -> a = b.
Proof.
  intros Ha Hb. destruct c as [[x y] z]. each12 a Ha; each12 b Hb; unfold glob; cbn; intros E; try reflexivity; exfalso; try discriminate; injection E; intros; lia.
Qed.
Lemma links_cross D H W f iso c e : In c (cubes D H W) -> In e (links_of f iso c) -> crossing D H W f iso e.
Proof. intros Hc He. apply in_map_iff in He as (a & <- & Ha). apply row_facts in Ha as [Ha Hx]; [|apply bits_len]. now apply (crossb_ok D H W f iso c a Hc Ha). Qed.
Lemma links_all D H W f iso c a : In c (cubes D H W) -> a < 12 -> crossing D H W f iso (glob c a) -> In (glob c a) (links_of f iso c).
Proof. intros Hc Ha Hx. apply in_map. apply row_facts; [apply bits_len|]. split; [exact Ha|]. now apply (crossb_ok D H W f iso c a Hc Ha). Qed.
(* every link of a grid with at least two points along each axis is an edge of a cell *)
Lemma link_cell D H W e : 2 <= D -> 2 <= H -> 2 <= W -> linkG D H W e -> exists c a, In c (cubes D H W) /\ a < 12 /\ e = glob c a.
Proof.
  intros HD HH HW. destruct e as [[[x y] z] ax]. intros [G1 G2]. unfold near, far in *. cbn in G1, G2.
  assert (C : forall n i, 2 <= n -> i < n -> exists j d, S j < n /\ d < 2 /\ i = j + d).
  { intros n i Hn Hi. destruct (Nat.eq_dec (S i) n); [exists (i - 1), 1; lia|exists i, 0; lia]. }
  destruct (C W x HW ltac:(lia)) as (cx & dx & X1 & X2 & X3). destruct (C H y HH ltac:(lia)) as (cy & dy & Y1 & Y2 & Y3). destruct (C D z HD ltac:(lia)) as (cz & dz & Z1 & Z2 & Z3).
  destruct ax.
  - exists (x, cy, cz), (match dy, dz with 0, 0 => 0 | 0, _ => 2 | _, 0 => 4 | _, _ => 6 end). cbn in G2. split; [apply cubes_in; lia|]. split; [destruct dy, dz; lia|]. subst y z. unfold glob. destruct dy as [|[|]], dz as [|[|]]; try lia; cbn; repeat (f_equal; try lia).
  - exists (cx, y, cz), (match dx, dz with 0, 0 => 8 | _, 0 => 9 | 0, _ => 11 | _, _ => 10 end). cbn in G2. split; [apply cubes_in; lia|]. split; [destruct dx, dz; lia|]. subst x z. unfold glob. destruct dx as [|[|]], dz as [|[|]]; try lia; cbn; repeat (f_equal; try lia).
  - exists (cx, cy, z), (match dx, dy with 0, 0 => 3 | _, 0 => 1 | 0, _ => 7 | _, _ => 5 end). cbn in G2. split; [apply cubes_in; lia|]. split; [destruct dx, dy; lia|]. subst x y. unfold glob. destruct dx as [|[|]], dy as [|[|]]; try lia; cbn; repeat (f_equal; try lia).
Qed.
