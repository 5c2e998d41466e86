(* From the data of the elements to vertices and faces. *)
From Coq Require Import Ascii String ZArith NArith Reals Bool List Permutation Lia.
From Verif Require Import Base RBase Text TextProofs Ply PlySpec PlyProofs PlyProofs2.
Import ListNotations.
Local Open Scope Z_scope.

Notation data_of es := (rev (map (fun er => (e_name (fst er), expected (fst er) (snd er))) es)).
Lemma find_key {A} (key : A -> text) l x n : NoDup (map key l) -> In x l -> key x = n -> find (fun y => text_eqb (key y) n) l = Some x.
Proof.
  intros H Hi <-. induction l as [|y l IH]; [easy|]. cbn in *. apply NoDup_cons_iff in H as [H1 H2]. destruct Hi as [->|Hi]; [now rewrite text_eqb_refl|].
  rewrite text_eqb_neq; auto. intros E. apply H1. rewrite E. now apply in_map.
Qed.
Lemma find_none {A} (key : A -> text) l n : ~ In n (map key l) -> find (fun y => text_eqb (key y) n) l = None.
Proof.
  intros H. induction l as [|y l IH]; [easy|]. cbn in *. rewrite text_eqb_neq by (intros E; apply H; now left). apply IH. tauto.
Qed.
Lemma find_data es e rows n : NoDup (map (fun er : element * list (list datum) => e_name (fst er)) es) -> In (e, rows) es -> e_name e = n ->
  find (fun p => text_eqb (fst p) n) (data_of es) = Some (n, expected e rows).
Proof.
  intros H Hi E. apply (find_key (@fst text edata)); auto.
  - rewrite map_rev, map_map. cbn. now apply NoDup_rev.
  - apply in_rev. rewrite rev_involutive. apply in_map_iff. exists (e, rows). cbn. rewrite E. auto.
Qed.
Lemma find_head (es : content) e rows n : NoDup (map (fun er => e_name (fst er)) es) -> In (e, rows) es -> e_name e = n ->
  find (fun e => text_eqb (e_name e) n) (map fst es) = Some e.
Proof. intros H Hi E. apply (find_key e_name); auto; [now rewrite map_map|]. now apply (in_map fst) in Hi. Qed.

(* ---- columns by name ---- *)
Lemma last_none n : forall ps k, ~ In n (map p_name ps) -> last_at n k ps = None.
Proof.
  induction ps as [|p ps IH]; intros k H; [easy|]. cbn in *. rewrite IH by tauto. rewrite text_eqb_neq; [easy|]. intros E. apply H. now left.
Qed.
Lemma last_some n : forall ps k, NoDup (map p_name ps) -> In n (map p_name ps) ->
  exists i p, last_at n k ps = Some (k + i)%nat /\ nth_error ps i = Some p /\ p_name p = n.
Proof.
  induction ps as [|p ps IH]; intros k Hn Hi; [easy|]. cbn [map last_at] in *. apply NoDup_cons_iff in Hn as [H1 H2]. destruct Hi as [E|Hi].
  - rewrite last_none by (now rewrite <- E). exists 0%nat, p. rewrite E, text_eqb_refl, Nat.add_0_r. auto.
  - destruct (IH (S k) H2 Hi) as (i & q & A & B & C). exists (S i), q. rewrite A. split; [f_equal; lia|auto].
Qed.
Definition at_names (ps : list prop) (names : list string) (is_ : list nat) : Prop :=
  Forall2 (fun n i => exists p, nth_error ps i = Some p /\ p_name p = str n) names is_.
Lemma idxs_some ps names : NoDup (map p_name ps) -> has_names ps names -> exists is_, idxs ps names = Some is_ /\ at_names ps names is_.
Proof.
  intros Hd. unfold idxs. induction names as [|n names IH]; intros H; [exists []; split; [reflexivity|constructor]|].
  destruct IH as (l & A & B); [intros m Hm; apply H; now right|]. destruct (last_some (str n) ps 0 Hd (H n (or_introl eq_refl))) as (i & p & C & D & E).
  exists (i :: l). cbn [map all_some]. rewrite C, A. split; [reflexivity|]. constructor; eauto.
Qed.
Lemma idxs_none ps names : NoDup (map p_name ps) -> ~ has_names ps names -> idxs ps names = None.
Proof.
  intros Hd H. unfold idxs. induction names as [|n names IH]; [elim H; intros m []|]. cbn [map all_some].
  destruct (in_dec (list_eq_dec ascii_dec) (str n) (map p_name ps)) as [Hi|Hi].
  - destruct (last_some (str n) ps 0 Hd Hi) as (i & p & C & _). rewrite C, IH; [reflexivity|]. intros Hh. apply H. intros m [<-|Hm]; auto.
  - now rewrite last_none.
Qed.
Lemma has_names_dec ps names : {has_names ps names} + {~ has_names ps names}.
Proof.
  destruct (Forall_dec (fun n => In (str n) (map p_name ps)) (fun n => in_dec (list_eq_dec ascii_dec) (str n) (map p_name ps)) names) as [H|H].
  - left. rewrite Forall_forall in H. exact H.
  - right. intros Hh. apply H, Forall_forall, Hh.
Qed.
Lemma f2_at {A B} (P : A -> B -> Prop) l l' : Forall2 P l l' -> forall i a b, nth_error l i = Some a -> nth_error l' i = Some b -> P a b.
Proof. induction 1 as [|x y l l' Hxy H IH]; intros [|i] a b Ha Hb; try easy; cbn in *; [congruence|eauto]. Qed.
Definition dnum : num := Whole 0.
Definition sel (is_ : list nat) (nums : list (list num)) : list (list num) := map (fun r => map (fun i => nth i r dnum) is_) nums.
Lemma at_names_lt ps names is_ : at_names ps names is_ -> Forall (fun i => (i < length ps)%nat) is_.
Proof. induction 1 as [|n i names is_ (p & A & _) H IH]; constructor; auto. apply nth_error_Some. congruence. Qed.
Notation ones := (fun (p : prop) d => exists v, d = One v).
Lemma sel_columns ps rows names is_ : Forall (fun row => Forall2 ones ps row) rows -> at_names ps names is_ -> columns_are ps rows names (sel is_ (map (map one_of) rows)).
Proof.
  intros H Hn. unfold columns_are, sel. rewrite map_map. induction H as [|row rows Hr H IH]; [constructor|]. cbn [map]. constructor; auto. clear IH H.
  induction Hn as [|n i names is_ (p & A & B) Hn IH]; cbn [map]; constructor; auto. exists i, p. split; auto. split; auto.
  destruct (nth_error row i) as [d|] eqn:E.
  - destruct (f2_at _ _ _ Hr _ _ _ A E) as (v & ->). f_equal. apply (map_nth_error one_of) in E. cbn in E. f_equal.
    symmetry. now apply nth_error_nth.
  - apply nth_error_None in E. rewrite <- (Base.Forall2_length _ _ _ Hr) in E. apply nth_error_None in E. congruence.
Qed.
Lemma rget_nth (r : list num) i : (i < length r)%nat -> rget r i = Ok (nth i r dnum).
Proof. intros H. unfold rget. destruct (nth_error r i) as [x|] eqn:E; [|apply nth_error_None in E; lia]. now rewrite (nth_error_nth _ _ dnum E). Qed.
Lemma rmap_all {A B} (f : A -> result B) (g : A -> B) l : (forall x, In x l -> f x = Ok (g x)) -> rmap f l = Ok (map g l).
Proof. induction l as [|x l IH]; intros H; [reflexivity|]. cbn [rmap map]. rewrite (H x (or_introl eq_refl)). cbn [rbind]. rewrite IH by (intros; apply H; now right). reflexivity. Qed.
Lemma pick_ok n rows is_ : Forall (fun r : list num => length r = n) rows -> Forall (fun i => (i < n)%nat) is_ -> pick rows is_ = Ok (sel is_ rows).
Proof.
  intros H Hi. unfold pick, sel. apply rmap_all. intros r Hr. apply rmap_all. intros i Hii. rewrite Forall_forall in *. apply rget_nth. rewrite (H r Hr). now apply Hi.
Qed.

(* ---- columns of the parts ---- *)
Definition pcols (j : nat) (parts : list (list (list num))) : list (nat * nat) :=
  concat (map (fun p => map (fun c => (fst p, c)) (seq 0 (width (snd p)))) (combine (seq j (length parts)) parts)).
Lemma pcols_cons j p parts : pcols j (p :: parts) = map (fun c => (j, c)) (seq 0 (width p)) ++ pcols (S j) parts.
Proof. reflexivity. Qed.
Lemma column_parts : forall rs nums i j, nums <> [] -> Forall (fun r => length r = length (expand rs)) nums -> (i < length (expand rs))%nat ->
  exists k c part, nth_error (pcols j (split_nums rs nums)) i = Some ((j + k)%nat, c) /\ nth_error (split_nums rs nums) k = Some part /\
    (forall r, In r part -> (c < length r)%nat) /\ map (fun r => nth c r dnum) part = map (fun r => nth i r dnum) nums.
Proof.
  induction rs as [|[t n] rs IH]; intros nums i j H0 H Hi; [cbn in Hi; lia|].
  assert (Ee : expand ((t, n) :: rs) = repeat t n ++ expand rs) by reflexivity. rewrite Ee, app_length, repeat_length in *.
  cbn [split_nums]. rewrite pcols_cons. rewrite Forall_forall in H.
  assert (Hw : width (map (firstn n) nums) = n). { destruct nums as [|r nums]; [easy|]. cbn [map width]. rewrite firstn_length, (H r (or_introl eq_refl)). lia. }
  rewrite Hw. destruct (Nat.ltb_spec i n) as [C|C].
  - exists 0%nat, i, (map (firstn n) nums). rewrite Nat.add_0_r. split.
    { rewrite nth_error_app1 by (now rewrite map_length, seq_length). rewrite nth_error_map, nth_error_seq_lt by auto. reflexivity. }
    split; [reflexivity|]. split.
    + intros r Hr. apply in_map_iff in Hr as (r' & <- & Hr'). rewrite firstn_length, (H r' Hr'). lia.
    + rewrite map_map. apply map_ext_in. intros r Hr. rewrite <- (firstn_skipn n r) at 2. rewrite app_nth1; [reflexivity|]. rewrite firstn_length, (H r Hr). lia.
  - destruct (IH (map (skipn n) nums) (i - n)%nat (S j)) as (k & c & part & A & B & D & E).
    + destruct nums; easy.
    + apply Forall_map, Forall_forall. intros r Hr. rewrite skipn_length, (H r Hr). lia.
    + lia.
    + exists (S k), c, part. split.
      { rewrite nth_error_app2 by (rewrite map_length, seq_length; lia). rewrite map_length, seq_length, A. f_equal. f_equal. lia. }
      split; [exact B|]. split; [exact D|]. rewrite E, map_map. apply map_ext_in. intros r Hr.
      rewrite <- (firstn_skipn n r) at 2. rewrite app_nth2; rewrite firstn_length, (H r Hr); [f_equal; lia|lia].
Qed.
Lemma column_of_ok rs nums i : nums <> [] -> Forall (fun r => length r = length (expand rs)) nums -> (i < length (expand rs))%nat ->
  column_of (length nums) (split_nums rs nums) i = Ok (map (fun r => nth i r dnum) nums).
Proof.
  intros H0 H Hi. destruct (column_parts rs nums i 0 H0 H Hi) as (k & c & part & A & B & D & E). unfold column_of, part_columns. fold (pcols 0 (split_nums rs nums)).
  unfold rget at 1. rewrite A. cbn [rbind fst snd Nat.add]. unfold rget at 1. rewrite B. cbn [rbind].
  rewrite (rmap_all _ (fun r => nth c r dnum)) by (intros r Hr; apply rget_nth; auto). cbn [rbind]. rewrite E. unfold assign. now rewrite map_length, Nat.eqb_refl.
Qed.
Lemma transpose_ok (is_ : list nat) : forall nums : list (list num), transpose (length nums) (map (fun i => map (fun r => nth i r dnum) nums) is_) = sel is_ nums.
Proof.
  induction nums as [|r nums IH]; [reflexivity|]. cbn [length transpose sel map]. rewrite !map_map. cbn [map]. f_equal. apply IH.
Qed.
Lemma gather_ok rs nums is_ : nums <> [] -> Forall (fun r => length r = length (expand rs)) nums -> Forall (fun i => (i < length (expand rs))%nat) is_ ->
  gather (length nums) (split_nums rs nums) is_ = Ok (sel is_ nums).
Proof.
  intros H0 H Hi. unfold gather. rewrite (rmap_all _ (fun i => map (fun r => nth i r dnum) nums)).
  - cbn [rbind]. now rewrite transpose_ok.
  - intros i Hii. rewrite Forall_forall in Hi. apply column_of_ok; auto.
Qed.

(* ---- vertices ---- *)
Definition opt_sel (nums : list (list num)) (o : option (list nat)) : option (list (list num)) := option_map (fun is_ => sel is_ nums) o.
Lemma opt_columns ps rows names : NoDup (map p_name ps) -> Forall (fun row => Forall2 ones ps row) rows ->
  maybe_columns ps rows names (opt_sel (map (map one_of) rows) (idxs ps names)) /\
  (forall is_, idxs ps names = Some is_ -> Forall (fun i => (i < length ps)%nat) is_).
Proof.
  intros Hd H. destruct (has_names_dec ps names) as [Hh|Hh].
  - destruct (idxs_some ps names Hd Hh) as (is_ & -> & A). split; [split; auto; now apply sel_columns|]. intros ? [= <-]. eapply at_names_lt; eauto.
  - rewrite idxs_none by auto. split; [exact Hh|easy].
Qed.
Lemma bytes_iff ps is_ : NoDup (map p_name ps) -> at_names ps rgb is_ ->
  (forallb (fun i => match nth_error ps i with Some p => (t_size (p_type p) =? 1)%nat | None => false end) is_ = true <->
   (forall p n, In p ps -> In n rgb -> p_name p = str n -> t_size (p_type p) = 1%nat)).
Proof.
  intros Hd H. rewrite forallb_forall. split.
  - intros Hf p n Hp Hn E. assert (Hx : exists i q, In i is_ /\ nth_error ps i = Some q /\ p_name q = str n).
    { clear - H Hn. induction H as [|m i names is_ (q & A & B) H IH]; [easy|]. destruct Hn as [->|Hn]; [exists i, q; split; [now left|auto]|].
      destruct (IH Hn) as (i' & q' & C & D). exists i', q'. split; [now right|auto]. }
    destruct Hx as (i & q & A & B & C). specialize (Hf i A). rewrite B in Hf. apply Nat.eqb_eq in Hf.
    assert (p = q); [|now subst]. apply In_nth_error in Hp as (j & Hj). assert (i = j); [|congruence].
    apply (proj1 (NoDup_nth_error (map p_name ps)) Hd).
    + rewrite map_length. apply nth_error_Some. congruence.
    + rewrite !nth_error_map, B, Hj. cbn. congruence.
  - intros Hf i Hi. assert (Hx : exists n q, In n rgb /\ nth_error ps i = Some q /\ p_name q = str n).
    { clear - H Hi. induction H as [|m j names is_ (q & A & B) H IH]; [easy|]. destruct Hi as [->|Hi]; [exists m, q; split; [now left|auto]|].
      destruct (IH Hi) as (i' & q' & C & D). exists i', q'. split; [now right|auto]. }
    destruct Hx as (n & q & A & B & C). rewrite B. apply Nat.eqb_eq. apply (Hf q n); auto. now apply nth_error_In in B.
Qed.
Lemma opt_r_ok (f : list nat -> result (list (list num))) nums n o :
  (forall is_, Forall (fun i => (i < n)%nat) is_ -> f is_ = Ok (sel is_ nums)) -> (forall is_, o = Some is_ -> Forall (fun i => (i < n)%nat) is_) ->
  opt_r f o = Ok (opt_sel nums o).
Proof. intros Hf Ho. destruct o as [is_|]; [|reflexivity]. cbn. now rewrite Hf by auto. Qed.
Lemma not_singleton e : e_props e <> [] -> Forall prop_ok (e_props e) -> is_fixed e = true -> is_constant_type e = false ->
  forall nums a, split_nums (runs (map p_type (e_props e))) nums <> [a].
Proof.
  intros H0 Hp Hf Hc nums a E. assert (Hts : Forall (fun t => In t standard_types) (map p_type (e_props e))).
  { apply Forall_map. eapply Forall_impl; [|exact Hp]. now intros q []. }
  apply expand_runs in Hts. destruct (runs (map p_type (e_props e))) as [|[t n] [|[u m] r]]; try easy.
  unfold expand in Hts. cbn in Hts. rewrite app_nil_r in Hts.
  assert (Ht : forall p, In p (e_props e) -> p_type p = t). { intros p Hi. apply (repeat_spec n). rewrite Hts. now apply in_map. }
  unfold is_constant_type in Hc. rewrite Hf in Hc. destruct (e_props e) as [|p ps]; [easy|]. cbn [andb] in Hc.
  assert (X : forallb (fun q => type_eqb (p_type q) (p_type p)) (p :: ps) = true); [|congruence].
  apply forallb_forall. intros q Hq. apply type_eqb_iff. rewrite (Ht q Hq), (Ht p (or_introl eq_refl)). auto.
Qed.
Lemma get_verts_ok (es : content) ps rows : NoDup (map (fun er => e_name (fst er)) es) -> good_vertices es ps rows -> NoDup (map p_name ps) -> Forall prop_ok ps ->
  (forall e, In (e, rows) es -> e_name e = str "vertex" -> e_count e = Z.of_nat (length rows)) ->
  Forall (fun row => Forall2 ones ps row) rows ->
  exists v, get_verts (map fst es) (data_of es) = Ok v /\ reads_vertices ps rows v.
Proof.
  intros Hd (e & Hi & He & Hps & Hl & Hxyz & Ho) Hdp Hpp Hc H. subst ps. unfold get_verts.
  rewrite (find_data es e rows _ Hd Hi He), (find_head es e rows _ Hd Hi He).
  assert (Hfix : is_fixed e = true) by now apply is_fixed_iff.
  assert (Hcol : column_indices (e_props e) = Ok (Cols (match idxs (e_props e) ["x"; "y"; "z"]%string with Some l => l | None => [] end) (idxs (e_props e) rgb)
            (match idxs (e_props e) rgb with Some l => forallb (fun i => match nth_error (e_props e) i with Some p => (t_size (p_type p) =? 1)%nat | None => false end) l | None => false end)
            (idxs (e_props e) ["nx"; "ny"; "nz"]%string) (idxs (e_props e) ["texture_u"; "texture_v"]%string))).
  { unfold column_indices. assert (X : existsb (fun p => match p_list p with Some _ => true | None => false end) (e_props e) = false).
    { destruct (existsb _ _) eqn:X; auto. apply existsb_exists in X as (p & A & B). rewrite Forall_forall in Hl. now rewrite (Hl p A) in B. }
    rewrite X. destruct (idxs_some _ _ Hdp Hxyz) as (is_ & -> & _). reflexivity. }
  destruct (idxs_some _ _ Hdp Hxyz) as (xyz & Exyz & Axyz). rewrite Exyz in Hcol.
  destruct (opt_columns (e_props e) rows rgb Hdp H) as [Crgb Lrgb].
  destruct (opt_columns (e_props e) rows ["nx"; "ny"; "nz"]%string Hdp H) as [Cn Ln].
  destruct (opt_columns (e_props e) rows ["texture_u"; "texture_v"]%string Hdp H) as [Cu Lu].
  set (bytes := match idxs (e_props e) rgb with Some l => forallb (fun i => match nth_error (e_props e) i with Some p => (t_size (p_type p) =? 1)%nat | None => false end) l | None => false end) in *.
  assert (Hbytes : idxs (e_props e) rgb <> None -> (bytes = true <-> (forall p n, In p (e_props e) -> In n rgb -> p_name p = str n -> t_size (p_type p) = 1%nat))).
  { intros Hn. destruct (has_names_dec (e_props e) rgb) as [Hh|Hh]; [|rewrite idxs_none in Hn; easy].
    destruct (idxs_some _ _ Hdp Hh) as (is_ & E & A). unfold bytes. rewrite E. now apply bytes_iff. }
  rewrite Hcol. cbn [rbind c_point c_color c_bytes c_normal c_uv].
  set (nums := map (map one_of) rows) in *.
  assert (Hlen : Forall (fun r => length r = length (e_props e)) nums).
  { apply Forall_map. eapply Forall_impl; [|exact H]. intros row Hr. cbv beta. rewrite map_length. symmetry. exact (Base.Forall2_length _ _ _ Hr). }
  assert (Hfinal : reads_vertices (e_props e) rows (VD (sel xyz nums) (option_map (fun x => (bytes, x)) (opt_sel nums (idxs (e_props e) rgb)))
                     (opt_sel nums (idxs (e_props e) ["nx"; "ny"; "nz"]%string)) (opt_sel nums (idxs (e_props e) ["texture_u"; "texture_v"]%string)))).
  { unfold reads_vertices. cbn [v_verts v_colors v_normals v_uvs]. split; [now apply sel_columns|]. split.
    - destruct (idxs (e_props e) rgb); exact Crgb.
    - split; [|auto]. intros scaled c E. destruct (idxs (e_props e) rgb); [|easy]. cbn in E. injection E as <- _. apply Hbytes. easy. }
  rewrite (Hc e Hi He). assert (Hne : rows = [] \/ rows <> []) by (clear; destruct rows; [now left|now right]). destruct Hne as [->|Hne].
  - change (Z.of_nat (length (@nil (list datum))) =? 0) with true. change (expected e []) with Nothing. cbv iota. eexists. split; [reflexivity|]. unfold reads_vertices. cbn [v_verts v_colors v_normals v_uvs]. split; [constructor|]. split.
    + destruct (idxs (e_props e) rgb); exact Crgb.
    + split; [|easy]. intros scaled c E. destruct (idxs (e_props e) rgb); [|easy]. injection E as <- _. apply Hbytes. easy.
  - assert (Hz : (Z.of_nat (length rows) =? 0) = false) by (apply Z.eqb_neq; clear - Hne; destruct rows; cbn; [easy|lia]).
    assert (Hex : expected e rows = if is_constant_type e then Parts [nums] else Parts (split_nums (runs (map p_type (e_props e))) nums)).
    { unfold expected. rewrite Hfix. unfold nums. clear - Hne. destruct rows; [easy|reflexivity]. }
    assert (Hnn : nums <> []) by (unfold nums; clear - Hne; destruct rows; easy). rewrite Hex, Hz.
    destruct (is_constant_type e) eqn:Ec.
    + assert (Ew : width nums = length (e_props e)). { destruct nums as [|r ?]; [easy|]. now apply Forall_cons_iff in Hlen. }
      rewrite Ew. destruct (Nat.eqb_spec (length (e_props e)) 3) as [E3|E3].
      * exists (VD nums None None None). split; [reflexivity|]. assert (Hnames : map p_name (e_props e) = map str ["x"; "y"; "z"]%string).
        { apply Ho; auto. unfold is_constant_type in Ec. rewrite Hfix in Ec. destruct (e_props e) as [|p0 ps0]; [easy|]. cbn [andb] in Ec. rewrite forallb_forall in Ec.
          intros p q Hp Hq. pose proof (Ec p Hp) as A. pose proof (Ec q Hq) as B. apply type_eqb_iff in A, B. destruct A as [-> ->], B as [-> ->]. auto. }
        assert (Hno : forall names, names <> [] -> Forall (fun n => ~ In n ["x"; "y"; "z"]%string) names -> ~ has_names (e_props e) names).
        { intros names Hnz Hf Hh. destruct names as [|n names]; [easy|]. apply Forall_cons_iff in Hf as [Hf _]. specialize (Hh n (or_introl eq_refl)). rewrite Hnames in Hh.
          apply in_map_iff in Hh as (m & Em & Hm). apply Hf. assert (n = m); [|now subst]. rewrite <- (string_of_list_ascii_of_string n), <- (string_of_list_ascii_of_string m). unfold str in Em. now rewrite Em. }
        unfold reads_vertices. cbn [v_verts v_colors v_normals v_uvs option_map maybe_columns]. split; [|split; [|split; [easy|split; intros _]]].
        -- assert (Ex : nums = sel [0; 1; 2]%nat nums).
           { unfold sel. rewrite <- (map_id nums) at 1. apply map_ext_in. intros r Hr. rewrite Forall_forall in Hlen. specialize (Hlen r Hr). rewrite E3 in Hlen.
             destruct r as [|a [|b [|c [|? ?]]]]; try easy. }
           rewrite Ex. apply sel_columns; auto. destruct (e_props e) as [|p0 [|p1 [|p2 [|? ?]]]]; try easy. cbn [map] in Hnames.
           injection Hnames as N0 N1 N2. repeat constructor; eexists; split; try reflexivity; assumption.
        -- apply Hno; [easy|]. repeat constructor; intros Hin; cbn in Hin; intuition discriminate.
        -- apply Hno; [easy|]. repeat constructor; intros Hin; cbn in Hin; intuition discriminate.
        -- apply Hno; [easy|]. repeat constructor; intros Hin; cbn in Hin; intuition discriminate.
      * rewrite (pick_ok (length (e_props e))); auto; [|eapply at_names_lt; eauto]. cbn [rbind].
        rewrite !(opt_r_ok (pick nums) nums (length (e_props e))) by (auto; intros; apply (pick_ok (length (e_props e))); auto). cbn [rbind]. eauto.
    + assert (Hex2 : expand (runs (map p_type (e_props e))) = map p_type (e_props e)).
      { apply expand_runs. apply Forall_map. eapply Forall_impl; [|exact Hpp]. now intros q []. }
      assert (Hg : forall is_, Forall (fun i => (i < length (e_props e))%nat) is_ -> gather (length rows) (split_nums (runs (map p_type (e_props e))) nums) is_ = Ok (sel is_ nums)).
      { intros is_ Hii. replace (length rows) with (length nums) by (unfold nums; apply map_length). apply gather_ok; auto; rewrite Hex2, map_length; auto. }
      pose proof (not_singleton e) as NS. assert (Hn0 : e_props e <> []). { intros E0. rewrite E0 in Axyz. inversion Axyz as [|? ? ? ? (p & A & _)]; subst. now destruct y. }
      specialize (NS Hn0 Hpp Hfix Ec nums). rewrite Nat2Z.id.
      assert (Hlt : Forall (fun i => (i < length (e_props e))%nat) xyz) by (eapply at_names_lt; eauto).
      remember (split_nums (runs (map p_type (e_props e))) nums) as parts. destruct parts as [|a [|b l]].
      * rewrite (Hg _ Hlt). cbn [rbind]. rewrite !(opt_r_ok _ nums (length (e_props e))) by auto. cbn [rbind]. eauto.
      * now elim (NS a).
      * rewrite (Hg _ Hlt). cbn [rbind]. rewrite !(opt_r_ok _ nums (length (e_props e))) by auto. cbn [rbind]. eauto.
Qed.

(* ---- faces ---- *)
Lemma perm_cols {A B} (g : A -> nat -> B) (is_ : list nat) : forall l : list A,
  Permutation (concat (map (fun i => map (fun f => g f i) l) is_)) (concat (map (fun f => map (g f) is_) l)).
Proof.
  induction l as [|f l IH].
  - cbn. replace (map (fun _ : nat => @nil B) is_) with (repeat (@nil B) (length is_)) by (induction is_; cbn; congruence). clear. induction (length is_); cbn; auto.
  - cbn [map concat]. rewrite <- IH. clear IH. induction is_ as [|i is_ IH]; [constructor|]. cbn [map concat]. cbn [app]. constructor. rewrite IH.
    rewrite !app_assoc. apply Permutation_app_tail, Permutation_app_comm.
Qed.
Lemma to_long_nth f i : to_long (nth i (map Whole f) (Whole 0)) = nth i f 0.
Proof. change (Whole 0) with (Whole 0). rewrite map_nth. reflexivity. Qed.
Lemma triangle_whole f i : triangle (map Whole f) i = [nth 0 f 0; nth (i + 1) f 0; nth (i + 2) f 0].
Proof. unfold triangle. now rewrite !to_long_nth. Qed.
Lemma fan_whole f : (3 <= length f)%nat -> fan_of (map Whole f) = Ok (fan f).
Proof.
  intros H. unfold fan_of. rewrite map_length. destruct (Nat.ltb_spec (length f) 3); [lia|]. f_equal. apply map_ext. intros i. apply triangle_whole.
Qed.
Lemma fan_small f : (length f < 3)%nat -> fan_of (map Whole f) = Fail EValue.
Proof. intros H. unfold fan_of. rewrite map_length. destruct (Nat.ltb_spec (length f) 3); [reflexivity|lia]. Qed.
Lemma fan_three f : length f = 3%nat -> fan f = [f].
Proof. destruct f as [|a [|b [|c [|? ?]]]]; easy. Qed.
Lemma face_data (e : element) p polys : e_props e = [p] -> p_list p <> None -> polys <> [] ->
  exists s, single_list e = Some s /\
  expected e (map (fun f => [Many (map Whole f)]) polys) = if uniform (map (map Whole) polys) then Array (map (map Whole) polys) else Rows (map (fun f => [Many (map Whole f)]) polys).
Proof.
  intros E Hl Hn. unfold single_list. rewrite E. destruct (p_list p) as [s|] eqn:El; [|easy]. exists (s, p_type p). split; auto. unfold expected, is_constant_type, single_list, is_fixed. rewrite E. cbn [forallb]. rewrite El.
  cbn [andb]. rewrite map_map. cbn [list_of]. destruct polys; easy.
Qed.
Lemma rmap_fail {A B} (f : A -> result B) (P : A -> Prop) l :
  (forall x, In x l -> P x -> exists y, f x = Ok y) -> (forall x, In x l -> ~ P x -> f x = Fail EValue) -> (forall x, P x \/ ~ P x) -> ~ Forall P l -> rmap f l = Fail EValue.
Proof.
  induction l as [|x l IH]; intros H1 H2 Hd H; [elim H; constructor|]. cbn [rmap]. destruct (Hd x) as [Hx|Hx].
  - destruct (H1 x (or_introl eq_refl) Hx) as (y & ->). cbn [rbind]. rewrite IH; auto.
    + intros z Hz. apply H1. now right.
    + intros z Hz. apply H2. now right.
  - rewrite (H2 x (or_introl eq_refl) Hx). reflexivity.
Qed.
Lemma rmap_map {A B C} (f : B -> result C) (g : A -> B) l : rmap f (map g l) = rmap (fun x => f (g x)) l.
Proof. induction l as [|x l IH]; [reflexivity|]. cbn [map rmap]. now rewrite IH. Qed.
Lemma uniform_width f polys : uniform (map (map Whole) (f :: polys)) = true -> Forall (fun g => length g = length f) (f :: polys).
Proof.
  cbn [map uniform]. unfold same_len. rewrite forallb_forall, map_length. intros H. constructor; auto. apply Forall_forall. intros g Hg.
  specialize (H (map Whole g) (in_map _ _ _ Hg)). apply Nat.eqb_eq in H. now rewrite map_length in H.
Qed.
Lemma get_faces_some (es : content) polys : NoDup (map (fun er => e_name (fst er)) es) -> polygons es polys -> at_least_three polys ->
  exists fs, get_faces (map fst es) (data_of es) = Ok fs /\ reads_faces polys fs.
Proof.
  intros Hd Hp H3. unfold get_faces. destruct polys as [polys|].
  - destruct Hp as (e & p & Hi & He & Hep & Hl). rewrite (find_data es e _ _ Hd Hi He), (find_head es e _ _ Hd Hi He).
    destruct polys as [|f polys].
    + unfold single_list. rewrite Hep. destruct (p_list p); [|easy]. exists None. split; reflexivity.
    + destruct (face_data e p (f :: polys) Hep Hl ltac:(easy)) as (s & -> & ->). cbn [at_least_three] in H3.
      destruct (uniform (map (map Whole) (f :: polys))) eqn:Eu.
      * apply uniform_width in Eu. assert (Hw : width (map (map Whole) (f :: polys)) = length f) by (cbn; apply map_length). rewrite Hw.
        pose proof H3 as H3'. apply Forall_cons_iff in H3' as [Hf _]. destruct (Nat.ltb_spec (length f) 3); [lia|]. eexists. split; [reflexivity|]. cbn [reads_faces]. eexists. split; [reflexivity|]. split.
        -- erewrite map_ext; [|intros i; rewrite map_map; erewrite map_ext; [|intros g; apply triangle_whole]; reflexivity].
           rewrite (perm_cols (fun f i => [nth 0 f 0; nth (i + 1) f 0; nth (i + 2) f 0]) (seq 0 (length f - 2)) (f :: polys)).
           erewrite map_ext_in; [reflexivity|]. intros g Hg. unfold fan. rewrite Forall_forall in Eu. now rewrite (Eu g Hg).
        -- intros Hall. pose proof Hall as Hall'. apply Forall_cons_iff in Hall' as [-> _]. change (3 - 2)%nat with 1%nat. cbn [seq map concat]. rewrite app_nil_r.
           change (triangle (map Whole f) 0 :: map (fun f => triangle f 0) (map (map Whole) polys)) with (map (fun f => triangle f 0) (map (map Whole) (f :: polys))). rewrite map_map.
           rewrite <- (map_id (f :: polys)) at 2. apply map_ext_in. intros g Hg. rewrite triangle_whole. rewrite Forall_forall in Hall. specialize (Hall g Hg). destruct g as [|a [|b [|c [|? ?]]]]; easy.
      * rewrite rmap_map. rewrite (rmap_all _ fan) by (intros g Hg; apply fan_whole; rewrite Forall_forall in H3; now apply H3). cbn [rbind]. eexists. split; [reflexivity|].
        cbn [reads_faces]. eexists. split; [reflexivity|]. split; [reflexivity|]. intros Hall. remember (f :: polys) as l. clear - Hall. induction Hall as [|g l Hg H IH]; [reflexivity|].
        cbn. rewrite IH, fan_three by auto. reflexivity.
  - rewrite (find_none (@fst text edata)). 2: { rewrite map_rev, map_map. cbn. intros Hi. apply in_rev in Hi. now apply Hp. }
    exists None. split; reflexivity.
Qed.
Lemma get_faces_small (es : content) polys : NoDup (map (fun er => e_name (fst er)) es) -> polygons es polys -> ~ at_least_three polys ->
  get_faces (map fst es) (data_of es) = Fail EValue.
Proof.
  intros Hd Hp H3. unfold get_faces. destruct polys as [polys|]; [|elim H3; exact I]. cbn [at_least_three] in H3.
  destruct Hp as (e & p & Hi & He & Hep & Hl). rewrite (find_data es e _ _ Hd Hi He), (find_head es e _ _ Hd Hi He).
  destruct polys as [|f polys]; [elim H3; constructor|]. destruct (face_data e p (f :: polys) Hep Hl ltac:(easy)) as (s & -> & ->).
  destruct (uniform (map (map Whole) (f :: polys))) eqn:Eu.
  - apply uniform_width in Eu. assert (Hw : width (map (map Whole) (f :: polys)) = length f) by (cbn; apply map_length). rewrite Hw.
    destruct (Nat.ltb_spec (length f) 3); [reflexivity|]. elim H3. eapply Forall_impl; [|exact Eu]. cbv beta. intros; lia.
  - rewrite rmap_map. rewrite (rmap_fail _ (fun f => (3 <= length f)%nat)); [reflexivity| | | |exact H3].
    + intros g _ Hg. rewrite fan_whole by auto. eauto.
    + intros g _ Hg. apply fan_small. lia.
    + intros g. lia.
Qed.
