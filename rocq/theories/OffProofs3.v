From Coq Require Import Ascii String ZArith NArith Reals Bool Lia Lra List Permutation.
From Verif Require Import Base RBase Text TextSpec TextProofs Off OffSpec OffProofs OffProofs2.
Import ListNotations.
Local Open Scope Z_scope.

(* ---- termination ---- *)
Lemma skip_stays fuel : forall fuel' h ls r, (fuel <= fuel')%nat -> skip_empty fuel h ls = Some r -> skip_empty fuel' h ls = Some r.
Proof.
  induction fuel as [|fuel IH]; intros fuel' h ls r L E.
  - cbn [skip_empty] in E. destruct (line_empty h) eqn:EH; [discriminate|]. destruct fuel'; cbn [skip_empty]; rewrite EH; exact E.
  - destruct fuel' as [|fuel']; [lia|]. cbn [skip_empty] in *. destruct (line_empty h); [|exact E]. destruct ls as [|l ls]; (eapply IH; [|exact E]; lia).
Qed.
Lemma skip_never fuel : forall h ls, ~ meaningful h -> List.Forall (fun l => ~ meaningful l) ls -> skip_empty fuel h ls = None.
Proof.
  assert (NE : ~ meaningful []) by (unfold meaningful; cbn; discriminate).
  induction fuel as [|fuel IH]; intros h ls Hh Hl; cbn [skip_empty]; unfold meaningful in Hh; (destruct (line_empty h) eqn:EH; [|exfalso; apply Hh; reflexivity]).
  - reflexivity.
  - destruct Hl as [|l ls Hl Hls]; apply IH; try assumption; constructor.
Qed.
Lemma skip_finds l after : meaningful l -> forall before h ls, h :: ls = before ++ l :: after -> List.Forall (fun l => ~ meaningful l) before -> skip_empty (length before) h ls = Some (l, after).
Proof.
  intros Hl. induction before as [|b before IH]; intros h ls E HB.
  - cbn [app] in E. injection E as -> ->. cbn [skip_empty length]. unfold meaningful in Hl. rewrite Hl. reflexivity.
  - cbn [app] in E. injection E as -> E. apply Forall_cons_iff in HB. destruct HB as (Hb & HB'). cbn [length skip_empty]. unfold meaningful in Hb. destruct (line_empty b); [|congruence]. destruct ls as [|l' ls]; [destruct before; discriminate|]. apply IH; assumption.
Qed.
Lemma first_meaningful ls : Exists meaningful ls -> exists before l after, ls = before ++ l :: after /\ List.Forall (fun l => ~ meaningful l) before /\ meaningful l.
Proof.
  induction ls as [|h ls IH]; intros H; [inversion H|]. destruct (line_empty h) eqn:EH.
  - assert (NM : ~ meaningful h) by (unfold meaningful; congruence). inversion H as [? ? Hm|? ? Hm]; subst; [contradiction|]. destruct (IH Hm) as (b & l & a & -> & HB & Hl). exists (h :: b), l, a. split; [reflexivity|]. split; [constructor; assumption|exact Hl].
  - exists [], h, ls. split; [reflexivity|]. split; [constructor|exact EH].
Qed.
Lemma meaningful_dec l : {meaningful l} + {~ meaningful l}.
Proof. unfold meaningful. destruct (line_empty l); [right; discriminate|left; reflexivity]. Qed.
Theorem terminates_iff file : (exists fuel, load_off_stream fuel file <> None) <-> has_counts_line file.
Proof.
  unfold load_off_stream. split.
  - intros (fuel & H). destruct (lines file) as [|h ls] eqn:EL.
    + exfalso. apply H. rewrite skip_never; [reflexivity|unfold meaningful; cbn; discriminate|constructor].
    + destruct (Exists_dec meaningful (h :: ls) meaningful_dec) as [EX|NX].
      * destruct (first_meaningful _ EX) as (b & l & a & E & HB & Hl). exists b, l, a. split; [rewrite EL; exact E|]. split; [exact HB|]. split; [exact Hl|].
        destruct (meaningful_dec (drop_off l)) as [M|M]; [left; exact M|]. right. destruct (Exists_dec meaningful a meaningful_dec) as [EA|NA]; [exact EA|]. exfalso. apply H.
        destruct (skip_empty fuel h ls) as [(h', ls')|] eqn:ES; [|reflexivity]. pose proof (skip_finds l a Hl b h ls E HB) as EF. pose proof (skip_stays _ (Nat.max fuel (length b)) _ _ _ (Nat.le_max_l _ _) ES) as S1. pose proof (skip_stays _ (Nat.max fuel (length b)) _ _ _ (Nat.le_max_r _ _) EF) as S2. rewrite S1 in S2. injection S2 as -> ->. rewrite skip_never; [reflexivity|exact M|]. apply Forall_Exists_neg. exact NA.
      * exfalso. apply H. apply Forall_Exists_neg in NX. inversion NX; subst. rewrite skip_never by assumption. reflexivity.
  - intros (b & l & a & E & HB & Hl & HM). destruct (lines file) as [|h ls]; [destruct b; discriminate|]. pose proof (skip_finds l a Hl b h ls E HB) as EF.
    assert (S2 : exists n r, skip_empty n (drop_off l) a = Some r).
    { destruct HM as [M|EA]; [exists 0%nat, (drop_off l, a); cbn [skip_empty]; unfold meaningful in M; rewrite M; reflexivity|]. destruct (meaningful_dec (drop_off l)) as [M|M]; [exists 0%nat, (drop_off l, a); cbn [skip_empty]; unfold meaningful in M; rewrite M; reflexivity|].
      destruct (first_meaningful a EA) as (b' & l' & a' & E' & HB' & Hl'). exists (length (drop_off l :: b')), (l', a'). apply (skip_finds l' a' Hl' (drop_off l :: b')); [rewrite E'; reflexivity|constructor; assumption]. }
    destruct S2 as (n & (h', ls') & S2). exists (Nat.max (length b) n). rewrite (skip_stays _ _ _ _ _ (Nat.le_max_l _ _) EF). rewrite (skip_stays _ _ _ _ _ (Nat.le_max_r _ _) S2). discriminate.
Qed.
Theorem fuel_irrelevant fuel fuel' file r : (fuel <= fuel')%nat -> load_off_stream fuel file = Some r -> load_off_stream fuel' file = Some r.
Proof.
  intros L. unfold load_off_stream. destruct (lines file) as [|h ls].
  - destruct (skip_empty fuel [] []) as [(h', ls')|] eqn:E1; [|discriminate]. rewrite (skip_stays _ _ _ _ _ L E1). destruct (skip_empty fuel (drop_off h') ls') as [(h2, ls2)|] eqn:E2; [|discriminate]. rewrite (skip_stays _ _ _ _ _ L E2). tauto.
  - destruct (skip_empty fuel h ls) as [(h', ls')|] eqn:E1; [|discriminate]. rewrite (skip_stays _ _ _ _ _ L E1). destruct (skip_empty fuel (drop_off h') ls') as [(h2, ls2)|] eqn:E2; [|discriminate]. rewrite (skip_stays _ _ _ _ _ L E2). tauto.
Qed.

(* ---- polygons ---- *)
Definition poly_words (f : list Z) : list text := print_int (Z.of_nat (length f)) :: map print_int f.
Definition fine_poly (f : list Z) : Prop := (3 <= length f)%nat /\ List.Forall (fun i => 0 <= i < 2 ^ 24) f.
Lemma good_poly f : List.Forall good_word (poly_words f).
Proof. constructor; [apply good_int|apply good_ints]. Qed.
Lemma reads_poly f : reads (poly_words f) (face_row (length f) f []).
Proof. split; [apply good_poly|]. unfold poly_words. cbn [all_numbers]. rewrite parse_float_int, numbers_ints. unfold face_row. rewrite app_nil_r. reflexivity. Qed.
Lemma loadtxt_columns c W D : Forall2 reads W D -> List.Forall (fun ws => ws <> []) W -> ~ List.Forall (fun ws => length ws = c) W -> forall rest, loadtxt (map line_of W ++ rest) (length W) (Some c) = inr Columns.
Proof.
  intros H. induction H as [|ws row W D (G & E) H IH]; intros HN NC rest; [exfalso; apply NC; constructor|]. inversion HN as [|? ? N1 N2]; subst. cbn [map app length loadtxt]. rewrite (line_words ws G). destruct ws as [|w ws]; [congruence|].
  change (S (length ws)) with (length (w :: ws)) in *. destruct (Nat.eqb_spec (length (w :: ws)) c) as [EQ|NE]; [|reflexivity]. cbn [negb]. rewrite E, EQ. rewrite IH; [reflexivity|exact N2|]. intros F. apply NC. constructor; assumption.
Qed.
Lemma fan3 f : length f = 3%nat -> [f] = fan f.
Proof. destruct f as [|a [|b [|c [|]]]]; try discriminate. reflexivity. Qed.
Lemma concat_singles {A B} (g : A -> B) l : concat (map (fun i => [g i]) l) = map g l.
Proof. induction l; cbn; congruence. Qed.
Lemma lump_one f ls nc : fine_poly f -> nc = None \/ nc = Some 0 -> faces_lump (line_of (poly_words f) :: ls) 1 nc = Ok (Some (fan f, 0, None, ls)).
Proof.
  intros (L & H) HN. pose proof (lump_ok (length f) 0 [poly_words f] [f] [[]] ls nc L (or_introl eq_refl) ltac:(discriminate) eq_refl) as K. cbn [map app length] in K. rewrite K; [| | | |exact HN].
  - cbn [Nat.eqb Z.of_nat]. do 4 f_equal. destruct (Nat.eqb_spec (length f) 3) as [E|E]; [f_equal; apply fan3; exact E|]. f_equal. cbn [map]. rewrite concat_singles. reflexivity.
  - repeat constructor; assumption.
  - repeat constructor.
  - cbn [combine map fst snd]. constructor; [apply reads_poly|constructor].
Qed.
Lemma one_by_one_polys polys : List.Forall fine_poly polys -> forall ls nc, nc = None \/ nc = Some 0 ->
  one_by_one (length polys) (map line_of (map poly_words polys) ++ ls) nc = Ok (flat_map fan polys, match polys with [] => nc | _ => Some 0 end, map (fun _ => None) polys, ls).
Proof.
  intros H. induction H as [|f polys Hf H IH]; intros ls nc HN; [reflexivity|]. cbn [length map app one_by_one]. rewrite (lump_one f _ nc Hf HN). cbn [rbind]. rewrite IH by (right; reflexivity). cbn [rbind flat_map]. destruct polys; reflexivity.
Qed.
Lemma transpose {A B C} (g : A -> B -> C) (s : list A) F : Permutation (concat (map (fun i => map (g i) F) s)) (flat_map (fun f => map (fun i => g i f) s) F).
Proof.
  induction F as [|f F IH]; cbn [flat_map].
  - assert (E : concat (map (fun i => map (g i) (@nil B)) s) = []) by (induction s; cbn; auto). rewrite E. constructor.
  - assert (P : Permutation (concat (map (fun i => map (g i) (f :: F)) s)) (map (fun i => g i f) s ++ concat (map (fun i => map (g i) F) s))).
    { clear IH. induction s as [|i s IH]; [constructor|]. cbn [map concat app]. constructor. rewrite IH, !app_assoc. apply Permutation_app_tail. apply Permutation_app_comm. }
    rewrite P. apply Permutation_app_head. exact IH.
Qed.
Lemma same_length_dec (polys : list (list Z)) k : {List.Forall (fun f => length f = k) polys} + {~ List.Forall (fun f => length f = k) polys}.
Proof. apply Forall_dec. intros f. apply Nat.eq_dec. Qed.
Lemma read_polys polys ls : polys <> [] -> List.Forall fine_poly polys -> exists F, read_faces (map line_of (map poly_words polys) ++ ls) (length polys) = Ok (Some F, None, ls) /\ Permutation F (flat_map fan polys).
Proof.
  intros NE H. destruct polys as [|f0 rest] eqn:EPS; [congruence|]. rewrite <- EPS in *. unfold read_faces. destruct (length polys) as [|n] eqn:EL; [subst; discriminate|]. rewrite <- EL.
  assert (EP : exists p, count_periods (map line_of (map poly_words polys) ++ ls) = Ok p) by (subst polys; cbn [map app]; unfold poly_words at 1; rewrite count_line by apply good_poly; eexists; reflexivity).
  destruct EP as (p & ->). cbn [rbind]. set (k := length f0). assert (Hk : (3 <= k)%nat) by (subst polys; inversion H as [|? ? (L & _) _]; exact L).
  destruct (same_length_dec polys k) as [S|NS].
  - rewrite (lump_ok k 0 (map poly_words polys) polys (repeat [] (length polys)) ls None); try assumption; try (left; reflexivity).
    + cbn [Nat.eqb Z.of_nat rbind]. eexists. split; [reflexivity|]. destruct (Nat.eqb_spec k 3) as [E3|E3].
      * assert (EQ : flat_map fan polys = polys); [|rewrite EQ; apply Permutation_refl]. rewrite Forall_forall in S. clear -S E3. rewrite E3 in S. induction polys as [|f polys IH]; [reflexivity|]. cbn [flat_map]. rewrite <- fan3 by (apply S; left; reflexivity). cbn [app]. f_equal. apply IH. intros x Hx. apply S. right. exact Hx.
      * rewrite (transpose (fun i f => [nth 0 f 0; nth (i + 1) f 0; nth (i + 2) f 0])). assert (EQ : flat_map (fun f => map (fun i => [nth 0 f 0; nth (i + 1) f 0; nth (i + 2) f 0]) (seq 0 (k - 2))) polys = flat_map fan polys); [|rewrite EQ; apply Permutation_refl].
        rewrite Forall_forall in S. clear -S. revert S. generalize k as k'. intros k' S. induction polys as [|f polys IH]; [reflexivity|]. cbn [flat_map]. rewrite IH by (intros; apply S; right; assumption). unfold fan at 2. rewrite (S f (or_introl eq_refl)). reflexivity.
    + rewrite repeat_length. reflexivity.
    + rewrite Forall_forall in *. intros f Hf. split; [apply S; exact Hf|apply H; exact Hf].
    + apply Forall_forall. intros c Hc. apply repeat_spec in Hc. subst. reflexivity.
    + rewrite combine_nils, map_map. cbn [fst snd]. clear -S. induction S as [|f polys Hf S IH]; constructor; [rewrite <- Hf; apply reads_poly|exact IH].
  - assert (EC : loadtxt (map line_of (map poly_words polys) ++ ls) (length polys) None = inr Columns).
    { subst polys. cbn [map app length loadtxt]. rewrite line_words by apply good_poly. unfold poly_words at 1. destruct (reads_poly f0) as (_ & E0). unfold poly_words in E0 at 1. rewrite E0.
      rewrite <- (map_length poly_words rest). assert (R2 : Forall2 reads (map poly_words rest) (map (fun f => face_row (length f) f []) rest)) by (clear; induction rest; constructor; [apply reads_poly|assumption]).
      rewrite (loadtxt_columns _ _ _ R2); [reflexivity|apply Forall_map, Forall_forall; intros f _; discriminate|]. intros F. apply NS. constructor; [reflexivity|]. apply (proj1 (Forall_map _ _ _)) in F. eapply Forall_impl; [|exact F]. intros f Hf. unfold poly_words in Hf. cbn [length] in Hf. rewrite !map_length in Hf. unfold k. lia. }
    unfold faces_lump at 1. rewrite EC. assert (L1 : (1 <? length polys)%nat = true). { apply Nat.ltb_lt. subst polys. destruct rest as [|f1 rest']; [exfalso; apply NS; repeat constructor|cbn; lia]. } rewrite L1. cbn [rbind].
    rewrite (one_by_one_polys polys H ls None (or_introl eq_refl)). cbn [rbind]. assert (EQ : match polys with [] => @None Z | _ => Some 0 end = Some 0) by (rewrite EPS; reflexivity). rewrite EQ. exists (flat_map fan polys). split; [reflexivity|apply Permutation_refl].
Qed.
Theorem polygons verts polys fuel inc : verts <> [] -> same_width 3 verts -> List.Forall fine_poly polys -> (2 <= fuel)%nat ->
  exists m, format_read fuel inc (polygon_file verts polys) = Some (Ok m) /\ rounded_rows 6 verts (m_verts m) /\ Permutation (m_faces m) (flat_map fan polys) /\ m_tex m = None.
Proof.
  intros NE HV HP HF. unfold format_read, polygon_file.
  assert (EB : concat (map (fun r => line_of (map (print_real 6) r)) verts) ++ concat (map (fun f => line_of (print_int (Z.of_nat (length f)) :: map print_int f)) polys) = concat (map line_of (map (map (print_real 6)) verts ++ map poly_words polys))) by (rewrite map_app, concat_app, !map_map; reflexivity).
  rewrite EB. rewrite (load_head _ _ _ _ _ (or_intror eq_refl)); [|apply Forall_app; split; apply Forall_map, Forall_forall; intros; [apply good_reals|apply good_poly]|exact HF]. rewrite (load_counts (length verts) (length polys) []), map_app.
  rewrite (read_verts_ok 3 6 verts _ NE HV (or_introl eq_refl)). cbn [Nat.eqb rbind]. rewrite <- (app_nil_r (map line_of (map poly_words polys))). destruct polys as [|f0 rest].
  - cbn. eexists. split; [reflexivity|]. cbn. split; [apply rounded_all|]. split; [constructor|reflexivity].
  - destruct (read_polys (f0 :: rest) [] ltac:(discriminate) HP) as (F & E & P). rewrite E. cbn [rbind concat lstrip]. eexists. split; [reflexivity|]. cbn [m_verts m_faces m_tex o_verts o_vcol o_faces o_fcol]. split; [apply rounded_all|]. split; [exact P|reflexivity].
Qed.

(* ---- shapes ---- *)
Lemma loadtxt_shape ls : forall n cols rows rest, loadtxt ls n cols = inl (rows, rest) -> (length rows <= n)%nat /\ List.Forall (fun r => length r = match cols with Some c => c | None => width rows end) rows /\ List.Forall (fun r => r <> []) rows.
Proof.
  induction ls as [|l ls IH]; intros n cols rows rest E; destruct n as [|n]; cbn [loadtxt] in E; try (injection E as <- <-; repeat split; try constructor; cbn; lia).
  destruct (words (before_hash l)) as [|w ws] eqn:EW; [apply IH in E; exact E|]. destruct (match cols with Some c => _ | None => _ end) eqn:EC; [discriminate|]. destruct (all_numbers (w :: ws)) as [row|] eqn:EN; [|discriminate]. destruct (loadtxt ls n (Some (length (w :: ws)))) as [(rows', rest')|] eqn:ER; [|discriminate]. injection E as <- <-.
  destruct (IH _ _ _ _ ER) as (A & B & C). pose proof (numbers_length _ _ EN) as LN. assert (EL : match cols with Some c => c | None => width (row :: rows') end = length (w :: ws)). { destruct cols as [c|]; [destruct (Nat.eqb_spec (length (w :: ws)) c); [congruence|discriminate]|exact LN]. }
  rewrite EL. split; [cbn; lia|]. split; constructor; try assumption. intros ->. discriminate.
Qed.
Lemma lump_shape ls n nc F k C rest : (0 < n)%nat -> faces_lump ls n nc = Ok (Some (F, k, C, rest)) ->
  F <> [] /\ List.Forall (fun r => length r = 3%nat) F /\ (match nc with Some c => k = c | None => True end) /\
  match C with None => k = 0 | Some C => (k = 3 \/ k = 4) /\ length C = length F /\ List.Forall (fun r => Z.of_nat (length r) = k) C end.
Proof.
  intros Hn. unfold faces_lump. destruct (loadtxt ls n None) as [(data, rest')|e] eqn:EL; [|destruct e; [destruct (1 <? n)%nat|]; discriminate]. destruct (loadtxt_shape _ _ _ _ _ EL) as (A & B & _). destruct (Nat.eqb_spec (length data) n) as [LN|]; [|discriminate]. cbn [negb].
  destruct data as [|[|x row] data'] eqn:ED; try discriminate. rewrite <- ED in *. set (fz := to_int x). cbv zeta. destruct (existsb _ data) eqn:EX; [discriminate|]. destruct (Z.ltb_spec fz 3) as [|L3]; [discriminate|]. set (found := Z.of_nat (width data) - 1 - fz). destruct (match nc with Some c => _ | None => _ end) eqn:EN; [discriminate|]. destruct (negb ((found =? 0) || (found =? 3) || (found =? 4))) eqn:E034; [discriminate|].
  apply negb_false_iff in E034. set (fs := Z.to_nat fz). set (raw := map (fun row => map to_index (firstn fs (skipn 1 row))) data). set (faces := if (fs =? 3)%nat then raw else _). set (colors := map (skipn (1 + fs)) data).
  assert (F3 : (3 <= fs)%nat) by lia. assert (W3 : (width data = 1 + fs + Z.to_nat found)%nat /\ 0 <= found). { rewrite !orb_true_iff, !Z.eqb_eq in E034. lia. } destruct W3 as (W3 & P0).
  assert (RW : forall r, In r raw -> length r = fs). { intros r Hr. apply in_map_iff in Hr. destruct Hr as (d & <- & Hd). rewrite Forall_forall in B. specialize (B d Hd). cbv beta in B. rewrite map_length, firstn_length, skipn_length. lia. }
  assert (ND : data <> []) by (rewrite ED; discriminate). assert (LR : length raw = length data) by apply map_length.
  assert (FN : faces <> []). { unfold faces. destruct (fs =? 3)%nat; [intros E; apply ND; destruct data; [reflexivity|discriminate]|]. destruct (fs - 2)%nat as [|m] eqn:EM; [lia|]. cbn [seq map concat]. intros E. apply app_eq_nil in E. destruct E as (E & _). apply map_eq_nil in E. apply ND. destruct data; [reflexivity|discriminate]. }
  assert (FL : List.Forall (fun r => length r = 3%nat) faces). { unfold faces. destruct (Nat.eqb_spec fs 3) as [E3|E3]; [apply Forall_forall; intros r Hr; rewrite <- E3; apply RW; exact Hr|]. apply Forall_forall. intros r Hr. apply in_concat in Hr. destruct Hr as (l & Hl & Hr). apply in_map_iff in Hl. destruct Hl as (i & <- & _). apply in_map_iff in Hr. destruct Hr as (f & <- & _). reflexivity. }
  assert (KN : match nc with Some c => found = c | None => True end) by (destruct nc; [apply negb_false_iff in EN; apply Z.eqb_eq; exact EN|exact I]).
  destruct (Z.eqb_spec found 0) as [Z0|Z0].
  - intros E. injection E as <- <- <- <-. rewrite <- Z0. repeat split; try assumption.
  - intros E. injection E as <- <- <- <-. split; [exact FN|]. split; [exact FL|]. split; [exact KN|]. rewrite !orb_true_iff, !Z.eqb_eq in E034. split; [destruct E034 as [[E0|E0]|E0]; [discriminate|left; exact E0|right; exact E0]|].
    assert (CL : forall c, In c colors -> Z.of_nat (length c) = found). { intros c Hc. apply in_map_iff in Hc. destruct Hc as (d & <- & Hd). rewrite Forall_forall in B. specialize (B d Hd). cbv beta in B. rewrite skipn_length. lia. }
    unfold faces. destruct (fs =? 3)%nat; [split; [unfold colors; rewrite map_length; lia|apply Forall_forall; exact CL]|]. split.
    + assert (L1 : forall m, length (concat (repeat colors m)) = (m * length data)%nat) by (induction m as [|m IH]; [reflexivity|]; cbn [repeat concat]; rewrite app_length, IH; unfold colors; rewrite map_length; lia).
      assert (L2 : forall s, length (concat (map (fun i => map (fun f : list Z => [nth 0 f 0; nth (i + 1) f 0; nth (i + 2) f 0]) raw) s)) = (length s * length data)%nat) by (induction s as [|i s IH]; [reflexivity|]; cbn [map concat]; rewrite app_length, IH, map_length, LR; cbn; lia). rewrite L1, L2, seq_length. reflexivity.
    + apply Forall_forall. intros c Hc. apply in_concat in Hc. destruct Hc as (l & Hl & Hc). apply repeat_spec in Hl. subst l. apply CL. exact Hc.
Qed.
Lemma one_shape n : forall ls nc F nc' Cs rest, one_by_one n ls nc = Ok (F, nc', Cs, rest) -> (0 < n)%nat ->
  F <> [] /\ List.Forall (fun r => length r = 3%nat) F /\ exists k, nc' = Some k /\ (match nc with Some c => k = c | None => True end) /\
  (k = 0 \/ (k = 3 \/ k = 4) /\ length (concat (map (fun c => match c with Some c => c | None => [] end) Cs)) = length F /\ List.Forall (fun r => Z.of_nat (length r) = k) (concat (map (fun c => match c with Some c => c | None => [] end) Cs))).
Proof.
  induction n as [|n IH]; intros ls nc F nc' Cs rest E Hn; [lia|]. cbn [one_by_one] in E. destruct (faces_lump ls 1 nc) as [[(((f, k), c), rest1)|]|] eqn:EL; try discriminate. cbn [rbind] in E. destruct (lump_shape _ _ _ _ _ _ _ (Nat.lt_0_1) EL) as (A & B & K & C).
  destruct (one_by_one n rest1 (Some k)) as [(((fs, nc2), cs), rest2)|] eqn:EO; [|discriminate]. cbn [rbind] in E. injection E as <- <- <- <-. destruct n as [|n'].
  - cbn in EO. injection EO as <- <- <- <-. rewrite app_nil_r. split; [exact A|]. split; [exact B|]. exists k. split; [reflexivity|]. split; [exact K|]. destruct c as [c|]; [|left; exact C]. right. cbn [map concat]. rewrite app_nil_r. exact C.
  - destruct (IH _ _ _ _ _ _ EO ltac:(lia)) as (A' & B' & k' & -> & K' & C'). cbv beta iota in K'. subst k'. split; [destruct f; [congruence|discriminate]|]. split; [apply Forall_app; split; assumption|]. exists k. split; [reflexivity|]. split; [exact K|].
    destruct C' as [->|(H1 & H2 & H3)]; [left; reflexivity|]. destruct c as [c|]; [|left; exact C]. right. destruct C as (_ & C1 & C2). split; [exact H1|]. cbn [map concat]. rewrite !app_length, H2, C1. split; [reflexivity|]. apply Forall_app. split; assumption.
Qed.
Lemma width_colours k (C : list (list dec)) : k = 3 \/ k = 4 -> List.Forall (fun r => Z.of_nat (length r) = k) C -> List.Forall (fun r => length r = 3%nat) C \/ List.Forall (fun r => length r = 4%nat) C.
Proof. intros [-> | ->] H; [left|right]; (eapply Forall_impl; [|exact H]); intros r Hr; cbv beta in Hr; lia. Qed.
Theorem loaded_shape fuel file d : load_off_stream fuel file = Some (Ok d) -> data_shape d.
Proof.
  unfold load_off_stream. destruct (match lines file with [] => _ | _ => _ end) as (h, ls). destruct (skip_empty fuel h ls) as [(h1, ls1)|]; [|discriminate]. destruct (skip_empty fuel (drop_off h1) ls1) as [(h2, ls2)|]; [|discriminate]. intros E. injection E as E. unfold load_body in E.
  destruct (words h2) as [|a [|b [|c more]]]; try discriminate. destruct (parse_int a) as [nv|]; [|discriminate]. destruct (parse_int b) as [nf|]; [|discriminate]. destruct (_ || (nv <? 0) || (nf <? 0)); [discriminate|].
  destruct (read_verts ls2 (Z.to_nat nv)) as [((verts, vcol), ls3)|] eqn:EV; [|discriminate]. cbn [rbind] in E. destruct (read_faces ls3 (Z.to_nat nf)) as [((faces, fcol), ls4)|] eqn:EF; [|discriminate]. cbn [rbind] in E. destruct (lstrip (concat ls4)); [|discriminate]. injection E as <-.
  unfold data_shape. cbn [o_verts o_vcol o_faces o_fcol].
  assert (SV : verts <> [] /\ List.Forall (fun r => length r = 3%nat) verts /\ colour_shape (length verts) vcol).
  { unfold read_verts in EV. destruct (count_periods ls2); [|discriminate]. cbn [rbind] in EV. destruct (loadtxt ls2 (Z.to_nat nv) None) as [(rows, rest)|] eqn:EL; [|discriminate]. destruct (loadtxt_shape _ _ _ _ _ EL) as (_ & B & _). destruct (negb (length rows =? Z.to_nat nv)%nat); [discriminate|].
    assert (NR : (width rows =? 1)%nat = false -> rows <> []) by (intros H ->; discriminate). destruct (Nat.eqb_spec (width rows) 3) as [W|W].
    - injection EV as <- <- <-. split; [apply NR; rewrite W; reflexivity|]. split; [|exact I]. rewrite W in B. exact B.
    - destruct ((width rows =? 6) || (width rows =? 7))%nat eqn:E67; [|discriminate]. injection EV as <- <- <-. assert (W67 : width rows = 6%nat \/ width rows = 7%nat) by (rewrite orb_true_iff, !Nat.eqb_eq in E67; exact E67).
      split; [intros EQ; apply map_eq_nil in EQ; subst; cbn in W67; lia|]. split; [apply Forall_map; eapply Forall_impl; [|exact B]; intros r Hr; cbv beta in *; pose proof (firstn_length 3 r) as FL; etransitivity; [exact FL|]; lia|]. cbn [colour_shape rows_of]. rewrite !map_length. split; [reflexivity|]. destruct W67 as [W6|W6]; [left|right]; apply Forall_map; (eapply Forall_impl; [|exact B]); intros r Hr; cbv beta in *; pose proof (skipn_length 3 r) as FL; (etransitivity; [exact FL|]); lia. }
  destruct SV as (S1 & S2 & S3). split; [exact S1|]. split; [exact S2|]. split; [exact S3|].
  unfold read_faces in EF. destruct (Z.to_nat nf) as [|n] eqn:ENF; [injection EF as <- <- _; reflexivity|]. assert (HNF : (0 < Z.to_nat nf)%nat) by (rewrite ENF; apply Nat.lt_0_succ). rewrite <- ENF in EF. destruct (count_periods ls3) as [p|]; [|discriminate]. cbn [rbind] in EF. destruct (faces_lump ls3 (Z.to_nat nf) None) as [[(((f, k), c0), rest)|]|] eqn:EL; try discriminate; cbn [rbind] in EF.
  - destruct (lump_shape _ _ _ _ _ _ _ HNF EL) as (A & B & _ & C). destruct c0 as [c0|]; injection EF as <- <- _; (split; [exact A|]); (split; [exact B|]); [|exact I]. destruct C as (C1 & C2 & C3). split; [exact C2|]. cbn [rows_of]. apply (width_colours k); assumption.
  - destruct (one_by_one (Z.to_nat nf) ls3 None) as [(((f, nc), cs), rest)|] eqn:EO; [|discriminate]. cbn [rbind] in EF. destruct (one_shape _ _ _ _ _ _ _ EO HNF) as (A & B & k & -> & _ & C). destruct C as [->|(C1 & C2 & C3)]; [injection EF as <- <- _; split; [exact A|]; split; [exact B|exact I]|].
    assert (EF' : Ok (Some f, Some {| by_255 := (p =? 0)%nat; rows_of := concat (map (fun c => match c with Some c => c | None => [] end) cs) |}, rest) = Ok (faces, fcol, ls4)) by (destruct C1 as [-> | ->]; exact EF). injection EF' as <- <- _. split; [exact A|]. split; [exact B|]. split; [exact C2|]. cbn [rows_of]. apply (width_colours k); assumption.
Qed.
