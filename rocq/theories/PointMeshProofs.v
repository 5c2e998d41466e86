From Verif Require Import PackingSpec PointcloudsSpec.
From Verif Require Import Base RBase Geom GeomSpec FaceAreas FaceAreasSpec MeshesSpec LaplaceSpec Sampling Reduce PointMesh PointMeshSpec.
Local Open Scope R_scope.

Lemma rget_mid {T} (pre : list T) x post : rget (pre ++ x :: post) (length pre) = Ok x.
Proof. apply rget_some. rewrite nth_error_app2 by lia. rewrite Nat.sub_diag. reflexivity. Qed.
Lemma rfold_snoc {S T} (f : S -> T -> result S) l x s : rfold f (l ++ [x]) s = (s' <- rfold f l s ;; f s' x).
Proof. rewrite rfold_app. destruct (rfold f l s) as [s'|]; cbn; [|reflexivity]. destruct (f s' x); reflexivity. Qed.
Lemma nth_error_snoc {T} (l : list T) x j y : nth_error l j = Some y -> nth_error (l ++ [x]) j = Some y.
Proof. intros H. rewrite nth_error_app1; [exact H|]. apply nth_error_Some. congruence. Qed.

Lemma f2_at {S T} (P : S -> T -> Prop) l l' : Forall2 P l l' -> forall i a b, nth_error l i = Some a -> nth_error l' i = Some b -> P a b.
Proof. induction 1 as [|x y l l' H _ IH]; intros [|i] a b E1 E2; try discriminate; cbn in E1, E2; [congruence|eauto]. Qed.

Lemma f2_impl {S T} (P Q : S -> T -> Prop) l l' : (forall a b, P a b -> Q a b) -> Forall2 P l l' -> Forall2 Q l l'.
Proof. intros H. induction 1; constructor; auto. Qed.

Section D.
Context {A B : Type} (d : A -> B -> R).

Lemma nearest_snoc a bs b s r : nearest_of d a bs s r -> d a b < flt_max ->
  nearest_of d a (bs ++ [b]) s (if Rleb (d a b) (fst r) then (d a b, Z.of_nat (s + length bs)) else r).
Proof.
  intros H Hb. assert (E : nth_error (bs ++ [b]) (length bs) = Some b) by (rewrite nth_error_app2, Nat.sub_diag by lia; reflexivity).
  destruct bs as [|b0 bs].
  - cbn in H. subst r. cbn [fst]. destruct (Rleb_spec (d a b) flt_max); [|lra]. exists 0%nat, b. cbn. split; [reflexivity|]. split; [reflexivity|]. intros b' [->|[]]. lra.
  - destruct H as (j & c & Hj & -> & Hm). cbn [fst]. destruct (Rleb_spec (d a b) (d a c)) as [L|L].
    + exists (length (b0 :: bs)), b. split; [exact E|]. split; [reflexivity|]. intros b' Hin. apply in_app_or in Hin as [Hin|[->|[]]]; [|lra]. specialize (Hm b' Hin). lra.
    + exists j, c. split; [apply nth_error_snoc; exact Hj|]. split; [reflexivity|]. intros b' Hin. apply in_app_or in Hin as [Hin|[->|[]]]; [apply Hm; exact Hin|lra].
Qed.
Lemma scan_ok a bs pre post : (forall b, In b bs -> d a b < flt_max) ->
  exists r, scan d (pre ++ bs ++ post) a (length pre) (length pre + length bs) = Ok r /\ nearest_of d a bs (length pre) r.
Proof.
  revert post. induction bs as [|b bs IH] using rev_ind; intros post Hb; unfold scan.
  - exists (flt_max, 0%Z). cbn [length]. rewrite Nat.add_0_r, Nat.sub_diag. cbn. auto.
  - rewrite app_length. cbn [length]. replace (length pre + (length bs + 1) - length pre)%nat with (length bs + 1)%nat by lia. rewrite seq_app. cbn [seq]. rewrite rfold_snoc.
    destruct (IH (b :: post)) as (r & E & N); [intros b' H; apply Hb, in_or_app; auto|]. unfold scan in E. replace (length pre + length bs - length pre)%nat with (length bs) in E by lia. replace ((bs ++ [b]) ++ post) with (bs ++ b :: post) by (rewrite <- app_assoc; reflexivity). rewrite E. cbn [rbind].
    replace (pre ++ bs ++ b :: post) with ((pre ++ bs) ++ b :: post) by (rewrite <- app_assoc; reflexivity). replace (length pre + length bs)%nat with (length (pre ++ bs)) by apply app_length. rewrite rget_mid. cbn [rbind]. eexists. split; [reflexivity|]. rewrite app_length. apply nearest_snoc; [exact N|]. apply Hb, in_or_app. right. left. reflexivity.
Qed.

(* ---- the CPU loop ---- *)
Lemma begins_app {T} (l1 l2 : list (list T)) : begins (l1 ++ l2) (length l1) = length (concat l1).
Proof. unfold begins. rewrite map_app, firstn_app, map_length, Nat.sub_diag. cbn [firstn]. rewrite app_nil_r, firstn_all2 by (rewrite map_length; lia). symmetry. apply length_concat_sum. Qed.
Lemma firsts_get {T} (l1 l2 : list (list T)) : l2 <> [] -> rget (firsts (l1 ++ l2)) (length l1) = Ok (length (concat l1)).
Proof.
  intros H. apply rget_some. unfold firsts. rewrite nth_error_map. rewrite app_length. replace (nth_error (seq 0 (length l1 + length l2)) (length l1)) with (Some (length l1)).
  - cbn. f_equal. apply begins_app.
  - symmetry. rewrite (nth_error_nth' _ 0%nat) by (rewrite seq_length; destruct l2; [contradiction|cbn; lia]). f_equal. rewrite seq_nth; [lia|]. destruct l2; [contradiction|cbn; lia].
Qed.
Lemma firsts_length {T} (l : list (list T)) : length (firsts l) = length l.
Proof. unfold firsts. rewrite map_length. apply seq_length. Qed.

Section Cpu.
Context (As : list (list A)) (Bs : list (list B)) (Hlen : length As = length Bs).
(* inside a batch element the cursor does not move *)
Lemma loop_inside xs rest n c pre bs post : Bs <> [] -> concat Bs = pre ++ bs ++ post ->
  b_batch_start c = length pre -> b_batch_end c = (length pre + length bs)%nat ->
  (forall e, a_batch_end c = Some e -> (n + length xs <= e)%nat) ->
  (forall a b, In a xs -> In b bs -> d a b < flt_max) ->
  forall tail, cpu_loop d (firsts As) (firsts Bs) (concat Bs) rest (n + length xs) c = Ok tail ->
  exists out, cpu_loop d (firsts As) (firsts Bs) (concat Bs) (xs ++ rest) n c = Ok (out ++ tail) /\ Forall2 (fun a r => nearest_of d a bs (length pre) r) xs out.
Proof.
  intros HB E Hs He. revert n. induction xs as [|a xs IH]; intros n Ha Hd tail Ht.
  - cbn [length] in Ht. rewrite Nat.add_0_r in Ht. exists []. split; [exact Ht|constructor].
  - cbn [app cpu_loop]. unfold advance. replace (match a_batch_end c with Some e => (n =? e)%nat | None => false end) with false.
    + cbn [rbind]. rewrite Hs, He. destruct (scan_ok a bs pre post) as (r & Er & Nr); [intros b Hb; apply Hd; [left; reflexivity|exact Hb]|]. rewrite <- E in Er. rewrite Er. cbn [rbind].
      cbn [length] in *. destruct (IH (S n)) with (tail := tail) as (out & Eo & No).
      * intros e He'. specialize (Ha e He'). lia.
      * intros a' b H1 H2. apply Hd; [right; exact H1|exact H2].
      * replace (S n + length xs)%nat with (n + S (length xs))%nat by lia. exact Ht.
      * rewrite Eo. cbn [rbind]. exists (r :: out). split; [reflexivity|constructor; assumption].
    + destruct (a_batch_end c) as [e|] eqn:Ee; [|reflexivity]. symmetry. apply Nat.eqb_neq. specialize (Ha e eq_refl). cbn [length] in Ha. lia.
Qed.
Definition agree (qs : list (list A * list B)) : list A * list B := (concat (map fst qs), concat (map snd qs)).
Lemma cpu_groups : forall A2 A1 B2 B1, As = A1 ++ A2 -> Bs = B1 ++ B2 -> length A1 = length B1 ->
  Forall (fun xs => xs <> []) A2 -> (forall g xs ys a b, nth_error A2 g = Some xs -> nth_error B2 g = Some ys -> In a xs -> In b ys -> d a b < flt_max) ->
  forall bs0, exists outs, cpu_loop d (firsts As) (firsts Bs) (concat Bs) (concat A2) (length (concat A1)) (Cursor (match A2 with [] => None | _ => Some (length (concat A1)) end) bs0 (length (concat B1)) (length A1)) = Ok (concat outs) /\
    length outs = length A2 /\ forall g xs ys, nth_error A2 g = Some xs -> nth_error B2 g = Some ys -> exists out, nth_error outs g = Some out /\ Forall2 (fun a r => nearest_of d a ys (length (concat B1) + begins B2 g) r) xs out.
Proof.
  induction A2 as [|xs A2 IH]; intros A1 B2 B1 EA EB EL HN HD bs0.
  - exists []. cbn. split; [reflexivity|]. split; [reflexivity|]. intros [|g]; discriminate.
  - destruct B2 as [|ys B2]. { exfalso. rewrite EA, EB in Hlen. rewrite !app_length in Hlen. cbn in Hlen. lia. }
    apply Forall_cons_iff in HN as (Hx & HN). destruct xs as [|a xs]; [contradiction|]. cbn [concat app cpu_loop]. unfold advance at 1. cbn [a_batch_end batch_idx b_batch_end]. rewrite Nat.eqb_refl.
    set (c1 := Cursor (match A2 with [] => None | _ => Some (length (concat (A1 ++ [a :: xs]))) end) (length (concat B1)) (length (concat (B1 ++ [ys]))) (S (length A1))).
    assert (Ec : (if (S (length A1) =? length (firsts As))%nat then Ok (Cursor None (length (concat B1)) (length (concat Bs)) (S (length A1)))
                  else ae <- rget (firsts As) (S (length A1)) ;; be <- rget (firsts Bs) (S (length A1)) ;; Ok (Cursor (Some ae) (length (concat B1)) be (S (length A1)))) = Ok c1).
    { rewrite firsts_length. unfold c1. destruct A2 as [|x2 A2].
      - replace (S (length A1) =? length As)%nat with true by (symmetry; apply Nat.eqb_eq; rewrite EA, app_length; cbn; lia). assert (B2 = []) as -> by (destruct B2; [reflexivity|]; exfalso; rewrite EA, EB, !app_length in Hlen; cbn in Hlen; lia). rewrite EB. reflexivity.
      - replace (S (length A1) =? length As)%nat with false by (symmetry; apply Nat.eqb_neq; rewrite EA, app_length; cbn; lia). destruct B2 as [|y2 B2]; [exfalso; rewrite EA, EB, !app_length in Hlen; cbn in Hlen; lia|].
        replace As with ((A1 ++ [a :: xs]) ++ x2 :: A2) by (rewrite <- app_assoc; symmetry; exact EA). replace Bs with ((B1 ++ [ys]) ++ y2 :: B2) by (rewrite <- app_assoc; symmetry; exact EB).
        replace (S (length A1)) with (length (A1 ++ [a :: xs])) at 1 by (rewrite app_length; cbn; lia). rewrite firsts_get by discriminate. cbn [rbind]. replace (S (length A1)) with (length (B1 ++ [ys])) at 1 by (rewrite app_length; cbn; lia). rewrite firsts_get by discriminate. reflexivity. }
    rewrite Ec. cbn [rbind].
    destruct (IH (A1 ++ [a :: xs]) B2 (B1 ++ [ys])) with (bs0 := length (concat B1)) as (outs & Eo & Lo & No).
    { rewrite <- app_assoc. exact EA. } { rewrite <- app_assoc. exact EB. } { rewrite !app_length. cbn. lia. } { exact HN. } { intros g xs' ys' a' b' H1 H2. exact (HD (S g) xs' ys' a' b' H1 H2). }
    assert (HBs : Bs <> []) by (rewrite EB; destruct B1; discriminate).
    assert (Ecat : concat Bs = concat B1 ++ ys ++ concat B2) by (rewrite EB, concat_app; reflexivity).
    assert (Ee : b_batch_end c1 = (length (concat B1) + length ys)%nat) by (unfold c1; cbn [b_batch_end]; rewrite concat_app, app_length; cbn; rewrite app_nil_r; reflexivity).
    destruct (scan_ok a ys (concat B1) (concat B2)) as (r & Er & Nr); [intros b Hb; apply (HD 0%nat (a :: xs) ys); [reflexivity|reflexivity|left; reflexivity|exact Hb]|].
    rewrite <- Ecat in Er. change (b_batch_start c1) with (length (concat B1)). rewrite Ee, Er. cbn [rbind].
    destruct (loop_inside xs (concat A2) (S (length (concat A1))) c1 (concat B1) ys (concat B2) HBs Ecat eq_refl Ee) with (tail := concat outs) as (out & Eout & Nout).
    + intros e. unfold c1. cbn [a_batch_end]. destruct A2; [discriminate|]. intros He. injection He as <-. rewrite concat_app, app_length. cbn. rewrite app_nil_r. lia.
    + intros a' b' H1 H2. apply (HD 0%nat (a :: xs) ys); [reflexivity|reflexivity|right; exact H1|exact H2].
    + rewrite <- Eo. f_equal.
      * rewrite concat_app, app_length. cbn [concat]. rewrite app_nil_r. cbn [length]. lia.
      * unfold c1. rewrite (app_length A1). cbn [length]. rewrite Nat.add_1_r. reflexivity.
    + rewrite Eout. cbn [rbind]. exists ((r :: out) :: outs). split; [reflexivity|]. split; [cbn; lia|]. intros [|g] xs' ys' H1 H2.
      * cbn in H1, H2. injection H1 as <-. injection H2 as <-. exists (r :: out). split; [reflexivity|]. unfold begins. cbn [firstn sum_nat fold_right]. replace (sum_nat []) with 0%nat by reflexivity. rewrite Nat.add_0_r. constructor; assumption.
      * cbn in H1, H2. destruct (No g xs' ys' H1 H2) as (o & Ho & Fo). exists o. split; [exact Ho|]. eapply f2_impl; [|exact Fo]. intros a' r'. unfold begins. cbn [map firstn]. rewrite concat_app, app_length. cbn [concat]. rewrite app_nil_r. replace (sum_nat (length ys :: firstn g (map (@length B) B2))) with (length ys + sum_nat (firstn g (map (@length B) B2)))%nat by reflexivity. rewrite Nat.add_assoc. auto.
Qed.
End Cpu.

(* group-wise answers are the answers of the batch *)
Lemma nth_concat {T} (ls : list (list T)) g l i x : nth_error ls g = Some l -> nth_error l i = Some x -> nth_error (concat ls) (begins ls g + i) = Some x.
Proof.
  revert g. induction ls as [|l0 ls IH]; intros [|g] Hg Hi; try discriminate.
  - cbn in Hg. injection Hg as ->. cbn. rewrite nth_error_app1; [exact Hi|]. apply nth_error_Some. congruence.
  - cbn in Hg. cbn [concat]. unfold begins. cbn [map firstn]. change (sum_nat (length l0 :: firstn g (map (@length T) ls))) with (length l0 + begins ls g)%nat. rewrite nth_error_app2 by lia. replace (length l0 + begins ls g + i - length l0)%nat with (begins ls g + i)%nat by lia. apply IH; assumption.
Qed.
Lemma begins_eq {S T} (l1 : list (list S)) (l2 : list (list T)) g : map (@length S) l1 = map (@length T) l2 -> begins l1 g = begins l2 g.
Proof. unfold begins. intros ->. reflexivity. Qed.
Theorem cpu_correct As Bs : length As = length Bs -> Forall (fun xs => xs <> []) As -> below_max d As Bs ->
  exists out, cpu_forward d (concat As) (firsts As) (concat Bs) (firsts Bs) = Ok out /\ nearest_all d As Bs out.
Proof.
  intros HL HN HD. unfold cpu_forward. rewrite !firsts_length, HL, Nat.eqb_refl. cbn [negb].
  destruct (list_eq_dec Nat.eq_dec (map (@length A) As) []) as [E0|E0].
  - destruct As; [|discriminate]. exists []. split; [reflexivity|]. split; [reflexivity|]. intros [|g]; discriminate.
  - destruct (cpu_groups As Bs HL As [] Bs [] eq_refl eq_refl eq_refl HN HD 0%nat) as (outs & E & L & N). cbn [concat length] in E. destruct As as [|x0 As0] eqn:EA; [contradiction|]. rewrite <- EA in *. exists (concat outs). split; [exact E|].
    assert (EL : map (@length _) outs = map (@length _) As).
    { apply nth_error_ext. intros g. rewrite !nth_error_map. destruct (nth_error As g) as [xs|] eqn:Eg.
      - destruct (nth_error Bs g) as [ys|] eqn:Eb; [|exfalso; apply nth_error_None in Eb; assert (g < length As)%nat by (apply nth_error_Some; congruence); lia]. destruct (N g xs ys Eg Eb) as (o & -> & F). cbn. f_equal. symmetry. exact (Base.Forall2_length _ _ _ F).
      - apply nth_error_None in Eg. replace (nth_error outs g) with (@None (list (R * Z))) by (symmetry; apply nth_error_None; lia). reflexivity. }
    split.
    + rewrite !length_concat_sum. f_equal. exact EL.
    + intros g xs ys i a Hg Hb Hi. destruct (N g xs ys Hg Hb) as (o & Ho & F). assert (Li : (i < length o)%nat) by (rewrite <- (Base.Forall2_length _ _ _ F); apply nth_error_Some; congruence). destruct (nth_error o i) as [r|] eqn:Er; [|apply nth_error_None in Er; lia]. exists r. split.
      * rewrite (begins_eq As outs g) by (symmetry; exact EL). apply (nth_concat outs g o); assumption.
      * pose proof (f2_at _ _ _ F i a r Hi Er) as X. cbn in X. exact X.
Qed.
End D.
