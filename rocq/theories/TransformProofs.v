From Verif Require Import Base RBase Geom LinAlg Transform TransformSpec.
Local Open Scope R_scope.

(* ---- induction over the tree ---- *)
Fixpoint transform_rect' (P : transform -> Prop)
  (H : forall k m ts, Forall P ts -> P (TR k m ts)) (t : transform) : P t :=
  match t with
  | TR k m ts => H k m ts
     ((fix go l : Forall P l :=
         match l with [] => Forall_nil _ | x :: l' => Forall_cons _ (transform_rect' P H x) (go l') end) ts)
  end.

(* ---- broadcasting ---- *)
Definition bc {A} (l : list A) (n : nat) : Prop := length l = n \/ length l = 1%nat.
Definition getb {A} (d : A) (l : list A) (i : nat) : A :=
  nth (if (length l =? 1)%nat then 0%nat else i) l d.

Lemma combine_nth_d {A B} (a : list A) (b : list B) da db i :
  length a = length b -> (i < length a)%nat -> nth i (combine a b) (da, db) = (nth i a da, nth i b db).
Proof. intros. apply combine_nth; assumption. Qed.

Lemma broadcast_ok {A B C} (f : A -> B -> C) da db dc a b n :
  bc a n -> bc b n ->
  exists c, broadcast f a b = Ok c /\ bc c n /\
    (length a = n \/ length b = n -> length c = n) /\
    (length a = 1%nat -> length b = 1%nat -> length c = 1%nat) /\
    (forall i, (i < n)%nat -> getb dc c i = f (getb da a i) (getb db b i)).
Proof.
  intros Ha Hb. unfold broadcast.
  destruct (length a =? length b)%nat eqn:E.
  - apply Nat.eqb_eq in E. eexists; split; [reflexivity|].
    set (c := map _ _). assert (Lc : length c = length a) by (unfold c; rewrite map_length, combine_length; lia).
    split; [destruct Ha; [left|right]; lia|].
    split; [lia|]. split; [lia|].
    intros i Hi. unfold getb. rewrite Lc, <- E.
    assert (Hj : ((if (length a =? 1)%nat then 0 else i) < length a)%nat).
    { destruct Ha as [Ha|Ha]; rewrite Ha; [|cbn; lia]. destruct (n =? 1)%nat eqn:En; [apply Nat.eqb_eq in En|]; lia. }
    set (j := if (length a =? 1)%nat then 0%nat else i) in *.
    unfold c. rewrite (nth_indep _ dc (f da db)) by (fold c; lia).
    change (f da db) with ((fun p => f (fst p) (snd p)) (da, db)).
    rewrite map_nth, combine_nth by exact E. reflexivity.
  - apply Nat.eqb_neq in E.
    destruct a as [|x [|x' a]].
    + destruct Ha as [Ha|Ha]; [|discriminate]. cbn in Ha. subst n.
      destruct Hb as [Hb|Hb]; [exfalso; apply E; rewrite Hb; reflexivity|].
      destruct b as [|y [|]]; try discriminate.
      eexists; split; [reflexivity|]. split; [left; reflexivity|]. split; [reflexivity|].
      split; [discriminate|]. lia.
    + assert (Hb' : length b = n) by (destruct Hb as [Hb|Hb]; [exact Hb|exfalso; apply E; rewrite Hb; reflexivity]).
      eexists; split; [reflexivity|]. rewrite map_length.
      split; [left; rewrite map_length; exact Hb'|]. split; [intros _; exact Hb'|].
      split; [intros _ X; exact X|].
      intros i Hi. unfold getb. rewrite map_length.
      assert (Hj : ((if (length b =? 1)%nat then 0 else i) < length b)%nat).
      { destruct (length b =? 1)%nat eqn:En; [apply Nat.eqb_eq in En|]; lia. }
      set (j := if (length b =? 1)%nat then 0%nat else i) in *.
      rewrite (nth_indep _ dc (f x db)) by (rewrite map_length; lia).
      rewrite (map_nth (fun y => f x y)). cbn. reflexivity.
    + assert (Hb1 : length b = 1%nat).
      { destruct Hb as [Hb|Hb]; [|exact Hb]. destruct Ha as [Ha|Ha]; [|discriminate]. congruence. }
      destruct b as [|y [|]]; try discriminate.
      assert (Ha' : length (x :: x' :: a) = n) by (destruct Ha as [Ha|Ha]; [exact Ha|discriminate]).
      remember (x :: x' :: a) as aa eqn:Eaa.
      exists (map (fun x0 => f x0 y) aa).
      split; [subst aa; reflexivity|]. unfold bc. rewrite map_length.
      split; [left; exact Ha'|]. split; [intros _; exact Ha'|]. split; [intros X _; exact X|].
      intros i Hi. unfold getb. rewrite map_length.
      assert (Hn1 : (length aa =? 1)%nat = false) by (subst aa; reflexivity).
      rewrite Hn1. rewrite (nth_indep _ dc (f da y)) by (rewrite map_length; lia).
      rewrite (map_nth (fun x0 => f x0 y)). reflexivity.
Qed.

Lemma broadcast_inv {A B C} (f : A -> B -> C) a b c :
  broadcast f a b = Ok c ->
  bc a (length c) /\ bc b (length c) /\ (length a = length c \/ length b = length c).
Proof.
  unfold broadcast, bc. destruct (length a =? length b)%nat eqn:E.
  - apply Nat.eqb_eq in E. intros H; injection H as <-. rewrite map_length, combine_length. lia.
  - destruct a as [|x [|x' a]]; destruct b as [|y [|y' b]]; try discriminate;
      intros H; injection H as <-; cbn; rewrite ?map_length; lia.
Qed.

Lemma broadcast_fail {A B C} (f : A -> B -> C) a b e :
  broadcast f a b = Fail e ->
  e = EValue /\ length a <> length b /\ length a <> 1%nat /\ length b <> 1%nat.
Proof.
  unfold broadcast. destruct (length a =? length b)%nat eqn:E; [discriminate|].
  apply Nat.eqb_neq in E.
  destruct a as [|x [|x' a]]; destruct b as [|y [|y' b]]; try discriminate;
    intros H; injection H as <-; cbn in *; repeat split; lia.
Qed.

(* the sequence of products of get_matrix *)
Fixpoint bfold (acc : list mat4) (cs : list (list mat4)) : result (list mat4) :=
  match cs with
  | [] => Ok acc
  | c :: cs' => acc' <- broadcast mul4 acc c ;; bfold acc' cs'
  end.

Lemma bfold_ok n : forall cs acc,
  bc acc n -> Forall (fun c => bc c n) cs ->
  exists out, bfold acc cs = Ok out /\ bc out n /\
    (length acc = n \/ Exists (fun c => length c = n) cs -> length out = n) /\
    (forall i, (i < n)%nat ->
       getb id4 out i = fold_left mul4 (map (fun c => getb id4 c i) cs) (getb id4 acc i)).
Proof.
  induction cs as [|c cs IH]; intros acc Ha Hc; cbn [bfold map fold_left].
  - exists acc. repeat split; auto. intros [H|H]; [exact H|inversion H].
  - inversion Hc as [|? ? Hc1 Hc2]; subst.
    destruct (broadcast_ok mul4 id4 id4 id4 acc c n Ha Hc1) as (o & E & Ho & Hl & _ & Hv).
    rewrite E. cbn [rbind].
    destruct (IH o Ho Hc2) as (out & E' & Hout & Hlen & Hval).
    exists out. split; [exact E'|]. split; [exact Hout|]. split.
    + intros [H|H]; [apply Hlen; left; apply Hl; left; exact H|].
      inversion H as [? ? Hx|? ? Hx]; apply Hlen; [left; apply Hl; right; exact Hx|right; exact Hx].
    + intros i Hi. rewrite Hval by exact Hi. rewrite Hv by exact Hi. reflexivity.
Qed.

Lemma bc_trans {A B} (l : list A) (m : list B) n : bc l (length m) -> bc m n -> bc l n.
Proof. unfold bc. lia. Qed.
Lemma bfold_inv : forall cs acc out,
  bfold acc cs = Ok out ->
  bc acc (length out) /\ Forall (fun c => bc c (length out)) cs /\
  (length acc = length out \/ Exists (fun c => length c = length out) cs).
Proof.
  induction cs as [|c cs IH]; intros acc out; cbn [bfold].
  - intros H; injection H as <-. split; [left; reflexivity|]. split; [constructor|left; reflexivity].
  - destruct (broadcast mul4 acc c) as [o|e] eqn:E; [|discriminate]. cbn [rbind]. intros H.
    destruct (IH _ _ H) as (H1 & H2 & H3). apply broadcast_inv in E. destruct E as (E1 & E2 & E3).
    split; [exact (bc_trans _ _ _ E1 H1)|]. split; [constructor; [exact (bc_trans _ _ _ E2 H1)|exact H2]|].
    destruct H3 as [H3|H3]; [|right; right; exact H3].
    destruct E3 as [E3|E3]; [left; congruence|right; left; congruence].
Qed.

Lemma get_matrix_eq k m ts :
  get_matrix (TR k m ts) = (cs <- rmap get_matrix ts ;; bfold m cs) \/
  (exists e, get_matrix (TR k m ts) = Fail e) /\ (exists e, rmap get_matrix ts = Fail e \/
     exists cs, rmap get_matrix ts = Ok cs /\ bfold m cs = Fail e).
Proof.
  cbn [get_matrix]. revert m. induction ts as [|t ts IH]; intros m; cbn [rmap].
  - left. reflexivity.
  - destruct (get_matrix t) as [mt|e]; cbn [rbind]; [|right; split; eexists; [reflexivity|left; reflexivity]].
    destruct (broadcast mul4 m mt) as [o|e] eqn:E; cbn [rbind].
    + destruct (IH o) as [IH'|[[e IH'] [e' IH'']]].
      * rewrite IH'. destruct (rmap get_matrix ts) as [cs|e]; cbn [rbind bfold]; [|left; reflexivity].
        rewrite E. left. reflexivity.
      * rewrite IH'. right. split; [eexists; reflexivity|].
        destruct IH'' as [IH''|(cs & IH1 & IH2)].
        -- rewrite IH''. exists e'. left. reflexivity.
        -- rewrite IH1. exists e'. right. exists (mt :: cs). split; [reflexivity|].
           cbn [bfold]. rewrite E. exact IH2.
    + right. split; [eexists; reflexivity|]. destruct (rmap get_matrix ts) as [cs|e'].
      * exists e. right. exists (mt :: cs). split; [reflexivity|]. cbn [bfold]. rewrite E. reflexivity.
      * exists e'. left. reflexivity.
Qed.

Lemma rmap_Forall2 {A B} (f : A -> result B) l out :
  rmap f l = Ok out <-> Forall2 (fun a b => f a = Ok b) l out.
Proof.
  revert out; induction l as [|x l IH]; intros out; cbn [rmap]; split; intros H.
  - injection H as <-; constructor.
  - inversion H; reflexivity.
  - destruct (f x) eqn:E; [|discriminate]. cbn [rbind] in H.
    destruct (rmap f l) eqn:E'; [|discriminate]. cbn [rbind] in H. injection H as <-.
    constructor; [exact E|apply IH; reflexivity].
  - inversion H; subst. rewrite H2. cbn [rbind]. rewrite (proj2 (IH l') H4). reflexivity.
Qed.

Lemma get_matrix_ok k m ts out :
  get_matrix (TR k m ts) = Ok out <->
  exists cs, Forall2 (fun t c => get_matrix t = Ok c) ts cs /\ bfold m cs = Ok out.
Proof.
  split.
  - intros H. destruct (get_matrix_eq k m ts) as [E|[[e E] _]]; [|congruence].
    rewrite E in H. destruct (rmap get_matrix ts) as [cs|] eqn:Ec; [|discriminate].
    exists cs. split; [apply rmap_Forall2; exact Ec|exact H].
  - intros (cs & H1 & H2). apply rmap_Forall2 in H1.
    destruct (get_matrix_eq k m ts) as [E|[_ [e [E|(cs' & E1 & E2)]]]].
    + rewrite E, H1. exact H2.
    + congruence.
    + rewrite H1 in E1. injection E1 as <-. congruence.
Qed.

Lemma get_matrix_fail : forall t e, get_matrix t = Fail e -> e = EValue.
Proof.
  apply (transform_rect' (fun t => forall e, get_matrix t = Fail e -> e = EValue)).
  intros k m ts Hts. cbn [get_matrix]. revert m.
  induction ts as [|t ts IH]; intros m e; [discriminate|].
  inversion Hts as [|? ? H1 H2]; subst.
  destruct (get_matrix t) as [mt|e'] eqn:Et; cbn [rbind].
  - destruct (broadcast mul4 m mt) as [o|e'] eqn:Eb; cbn [rbind].
    + apply IH; exact H2.
    + intros H; injection H as <-. apply broadcast_fail in Eb. apply Eb.
  - intros H; injection H as <-. apply H1; reflexivity.
Qed.

(* ---- well-formedness: what the constructors establish ---- *)
Definition kind_ok (k : kind) (a : mat4) : Prop :=
  match k with
  | KGeneric => True
  | KTranslate => exists p, a = translate_mat p
  | KScale => exists p, a = scale_mat p
  | KRotate | KAxisAngle => exists r, a = rotate_mat r /\ orthogonal r
  end.
Fixpoint wf (t : transform) : Prop :=
  match t with TR k m ts => Forall (kind_ok k) m /\
     (fix go l := match l with [] => True | x :: l' => wf x /\ go l' end) ts /\
     (k <> KGeneric -> ts = []) end.
Lemma wf_eq k m ts : wf (TR k m ts) <-> Forall (kind_ok k) m /\ Forall wf ts /\ (k <> KGeneric -> ts = []).
Proof.
  cbn [wf]. assert (X : (fix go l := match l with [] => True | x :: l' => wf x /\ go l' end) ts <-> Forall wf ts).
  { induction ts as [|x l IH]; [split; constructor|]. rewrite IH. split; intros H; [destruct H; constructor; auto|inversion H; auto]. }
  rewrite X. tauto.
Qed.

Lemma axis_rot_orthogonal a t : orthogonal (tr3 (axis_rot a t)).
Proof.
  unfold orthogonal. rewrite tr3_tr. pose proof (sin2_cos2 t) as H. unfold Rsqr in H.
  destruct a; unfold axis_rot, mul3, tr3, id3; cbn [m00 m01 m02 m10 m11 m12 m20 m21 m22]; apply M3_eq; lra.
Qed.

Lemma kind_inverse_ok k a b :
  kind_ok k a -> kind_inverse k a = Ok b -> mul4 a b = id4.
Proof.
  destruct k; cbn [kind_ok kind_inverse].
  - intros _ H. apply inv4_ok in H. apply H.
  - intros [p ->] H. injection H as <-. destruct p as [px py pz]. unfold translate_mat, mul4, id4.
    cbn [n00 n01 n02 n03 n10 n11 n12 n13 n20 n21 n22 n23 n30 n31 n32 n33 x3 y3 z3]. apply M4_eq; ring.
  - intros [p ->]. destruct p as [x y z]. unfold scale_mat.
    cbn [n00 n01 n02 n03 n10 n11 n12 n13 n20 n21 n22 n23 n30 n31 n32 n33 x3 y3 z3].
    destruct (Reqb_spec x 0); [discriminate|]. destruct (Reqb_spec y 0); [discriminate|].
    destruct (Reqb_spec z 0); [discriminate|]. destruct (Reqb_spec 1 0); [discriminate|].
    cbn [orb]. intros H; injection H as <-. unfold mul4, id4.
    cbn [n00 n01 n02 n03 n10 n11 n12 n13 n20 n21 n22 n23 n30 n31 n32 n33 x3 y3 z3].
    apply M4_eq; try ring; field; auto.
  - intros (r & -> & Hr) H. injection H as <-. unfold orthogonal in Hr. destruct r as [ra rb rc rd re rf rg rh ri].
    unfold mul3, tr3, id3 in Hr. cbn [m00 m01 m02 m10 m11 m12 m20 m21 m22] in Hr. injection Hr as R0 R1 R2 R3 R4 R5 R6 R7 R8.
    unfold rotate_mat, tr4, mul4, id4. cbn [n00 n01 n02 n03 n10 n11 n12 n13 n20 n21 n22 n23 n30 n31 n32 n33 m00 m01 m02 m10 m11 m12 m20 m21 m22].
    apply M4_eq; lra.
  - intros (r & -> & Hr) H. injection H as <-. unfold orthogonal in Hr. destruct r as [ra rb rc rd re rf rg rh ri].
    unfold mul3, tr3, id3 in Hr. cbn [m00 m01 m02 m10 m11 m12 m20 m21 m22] in Hr. injection Hr as R0 R1 R2 R3 R4 R5 R6 R7 R8.
    unfold rotate_mat, tr4, mul4, id4. cbn [n00 n01 n02 n03 n10 n11 n12 n13 n20 n21 n22 n23 n30 n31 n32 n33 m00 m01 m02 m10 m11 m12 m20 m21 m22].
    apply M4_eq; lra.
Qed.

Lemma kind_inverse_defined k a :
  kind_ok k a -> det4 a <> 0 -> exists b, kind_inverse k a = Ok b.
Proof.
  destruct k; cbn [kind_ok kind_inverse]; try (intros; eexists; reflexivity).
  - intros _ H. apply inv4_defined; exact H.
  - intros [p ->] H. destruct p as [x y z]. unfold scale_mat in *.
    unfold det4, adj4, det3 in H. cbn [n00 n01 n02 n03 n10 n11 n12 n13 n20 n21 n22 n23 n30 n31 n32 n33 x3 y3 z3 m00 m01 m02 m10 m11 m12 m20 m21 m22] in *.
    destruct (Reqb_spec x 0) as [->|]; [exfalso; apply H; ring|].
    destruct (Reqb_spec y 0) as [->|]; [exfalso; apply H; ring|].
    destruct (Reqb_spec z 0) as [->|]; [exfalso; apply H; ring|].
    destruct (Reqb_spec 1 0); [lra|]. eexists; reflexivity.
Qed.

(* ---- inverse ---- *)
Definition inv_batch (a b : list mat4) : Prop :=
  length a = length b /\ forall i, (i < length a)%nat -> mul4 (nth i a id4) (nth i b id4) = id4.

Lemma inv_batch_getb a b i : inv_batch a b -> mul4 (getb id4 a i) (getb id4 b i) = id4.
Proof.
  intros (L & H). unfold getb. rewrite <- L.
  destruct (le_lt_dec (length a) (if (length a =? 1)%nat then 0%nat else i)) as [Hi|Hi].
  - rewrite !nth_overflow by lia. apply mul4_1_l.
  - apply H; exact Hi.
Qed.

Lemma fold_mul4_app l : forall a b, fold_left mul4 l (mul4 a b) = mul4 a (fold_left mul4 l b).
Proof. induction l as [|x l IH]; intros a b; cbn; [reflexivity|]. rewrite mul4_assoc. apply IH. Qed.

Lemma fold_inverse : forall cs ds a b,
  Forall2 (fun c d => mul4 c d = id4) cs ds -> mul4 a b = id4 ->
  mul4 (fold_left mul4 cs a) (fold_left mul4 (rev ds ++ [b]) id4) = id4.
Proof.
  intros cs ds a b H Hab. rewrite fold_left_app. cbn [fold_left].
  rewrite <- (mul4_1_r a), fold_mul4_app, mul4_assoc.
  assert (X : mul4 (fold_left mul4 cs id4) (fold_left mul4 (rev ds) id4) = id4).
  { clear a b Hab. induction H as [|c d cs ds Hcd H IH]; cbn [fold_left rev]; [apply mul4_1_l|].
    rewrite fold_left_app. cbn [fold_left].
    rewrite <- (mul4_1_r (mul4 id4 c)), fold_mul4_app, mul4_1_l.
    rewrite mul4_assoc, <- (mul4_assoc (fold_left mul4 cs id4)), IH, mul4_1_l. exact Hcd. }
  rewrite <- (mul4_assoc (fold_left mul4 cs id4)), X, mul4_1_l. exact Hab.
Qed.

Lemma inverse_parts_eq k m ts :
  inverse_parts (TR k m ts) =
  (im <- rmap (kind_inverse k) m ;;
   match ts with
   | [] => Ok (TR KGeneric im [])
   | _ => its <- rmap inverse_parts ts ;; Ok (TR KGeneric [id4] (rev its ++ [TR KGeneric im []]))
   end).
Proof.
  cbn [inverse_parts]. destruct (rmap (kind_inverse k) m) as [im|e]; [|reflexivity]. cbn [rbind].
  destruct ts as [|t0 ts0]; [reflexivity|].
  assert (X : forall l, (fix go (l : list transform) : result (list transform) :=
                    match l with
                    | [] => Ok []
                    | o :: l' => o' <- inverse_parts o ;; r <- go l' ;; Ok (o' :: r)
                    end) l = rmap inverse_parts l).
  { induction l as [|x l IH]; [reflexivity|]. cbn [rmap]. rewrite IH. reflexivity. }
  rewrite X. reflexivity.
Qed.

Lemma rmap_kind_inv_batch k m im :
  Forall (kind_ok k) m -> rmap (kind_inverse k) m = Ok im -> inv_batch m im.
Proof.
  intros Hk H. apply rmap_Forall2 in H. split; [eapply Forall2_length; exact H|].
  intros i Hi. revert i Hi. induction H as [|a b m im Hab H IH]; cbn; [lia|].
  inversion Hk; subst. intros [|i] Hi; [eapply kind_inverse_ok; eassumption|]. apply IH; [assumption|lia].
Qed.

Lemma inverse_parts_ok : forall t, wf t -> forall ms u,
  get_matrix t = Ok ms -> inverse_parts t = Ok u ->
  exists ims, get_matrix u = Ok ims /\ inv_batch ms ims.
Proof.
  apply (transform_rect' (fun t => wf t -> forall ms u,
    get_matrix t = Ok ms -> inverse_parts t = Ok u ->
    exists ims, get_matrix u = Ok ims /\ inv_batch ms ims)).
  intros k m ts IH Hwf ms u Hm Hu. apply wf_eq in Hwf. destruct Hwf as (Hk & Hts & _).
  rewrite inverse_parts_eq in Hu.
  destruct (rmap (kind_inverse k) m) as [im|] eqn:Eim; [|discriminate]. cbn [rbind] in Hu.
  pose proof (rmap_kind_inv_batch _ _ _ Hk Eim) as Him.
  destruct ts as [|t0 ts0] eqn:Ets.
  - injection Hu as <-. cbn in Hm. injection Hm as <-. exists im. split; [reflexivity|exact Him].
  - rewrite <- Ets in *. clear Ets t0 ts0.
    destruct (rmap inverse_parts ts) as [its|] eqn:Eits; [|discriminate]. cbn [rbind] in Hu. injection Hu as <-.
    apply rmap_Forall2 in Eits. apply get_matrix_ok in Hm. destruct Hm as (cs & Hcs & Hf).
    assert (Hics : exists ics, Forall2 (fun t c => get_matrix t = Ok c) its ics /\ Forall2 inv_batch cs ics).
    { clear Hf. revert its cs Eits Hcs. induction ts as [|t ts IHts]; intros its cs Eits Hcs.
      - inversion Eits; inversion Hcs; subst. exists []. split; constructor.
      - inversion Eits as [|? u' ? its' Hu' Eits']; inversion Hcs as [|? c ? cs' Hc Hcs']; subst.
        inversion IH as [|? ? I1 I2]; inversion Hts as [|? ? W1 W2]; subst.
        destruct (I1 W1 _ _ Hc Hu') as (ic & G & B).
        destruct (IHts I2 W2 _ _ Eits' Hcs') as (ics & G' & B').
        exists (ic :: ics). split; constructor; assumption. }
    destruct Hics as (ics & Hics & Hinv).
    destruct (bfold_inv _ _ _ Hf) as (Hbm & Hbcs & Hex).
    set (n := length ms) in *.
    assert (Hbics : Forall (fun c => bc c n) ics).
    { clear - Hinv Hbcs. induction Hinv as [|c ic cs ics [L _] H IH]; constructor.
      - inversion Hbcs; subst. unfold bc in *. lia.
      - apply IH. inversion Hbcs; assumption. }
    assert (Hbim : bc im n) by (destruct Him as [L _]; unfold bc in *; lia).
    destruct (bfold_ok n (rev ics ++ [im]) [id4]) as (out & Eo & Hout & Hlo & Hvo).
    { right; reflexivity. }
    { apply Forall_app; split; [apply Forall_rev; exact Hbics|constructor; [exact Hbim|constructor]]. }
    exists out. split.
    + apply get_matrix_ok. exists (rev ics ++ [im]). split; [|exact Eo].
      apply Forall2_app; [|repeat constructor].
      clear - Hics. induction Hics; cbn; [constructor|]. apply Forall2_app; [assumption|repeat constructor; assumption].
    + assert (Lo : length out = n).
      { apply Hlo. destruct Hex as [Hex|Hex].
        - right. apply Exists_app. right. constructor. destruct Him as [L _]. lia.
        - right. apply Exists_app. left. apply Exists_rev.
          clear - Hinv Hex. induction Hinv as [|c ic cs ics [L _] H IH]; [inversion Hex|].
          inversion Hex; subst; [left; lia|right; auto]. }
      split; [symmetry; exact Lo|]. intros i Hi. fold n in Hi.
      destruct (bfold_ok n cs m Hbm Hbcs) as (ms' & Ems & _ & _ & Hvm).
      rewrite Hf in Ems. injection Ems as <-.
      assert (G1 : forall l : list mat4, length l = n -> nth i l id4 = getb id4 l i).
      { intros l L. unfold getb. rewrite L. destruct (n =? 1)%nat eqn:En; [|reflexivity].
        apply Nat.eqb_eq in En. replace i with 0%nat by lia. reflexivity. }
      rewrite (G1 ms eq_refl), (G1 out Lo), Hvm, Hvo by exact Hi.
      rewrite map_app, map_rev. cbn [map].
      replace (getb id4 [id4] i) with id4 by reflexivity.
      apply fold_inverse.
      * clear - Hinv. induction Hinv as [|c ic cs ics B H IH]; cbn; constructor; [|exact IH].
        apply inv_batch_getb; exact B.
      * apply inv_batch_getb; exact Him.
Qed.

Lemma inverse_matrix c t ms u :
  wf t -> get_matrix t = Ok ms -> inverse c t = Ok u ->
  exists ims, get_matrix u = Ok ims /\ inv_batch ms ims.
Proof.
  destruct c; cbn [inverse]; intros Hwf Hm Hu.
  - rewrite Hm in Hu. cbn [rbind] in Hu. destruct (rmap inv4 ms) as [im|] eqn:E; [|discriminate].
    injection Hu as <-. exists im. split; [reflexivity|].
    apply (rmap_kind_inv_batch KGeneric); [|exact E].
    apply Forall_forall. intros; exact I.
  - eapply inverse_parts_ok; eassumption.
Qed.

Lemma inv_batch_mutual a b : inv_batch a b <-> Forall2 mutual_inverse a b.
Proof.
  split.
  - intros (L & H). revert b L H. induction a as [|x a IH]; intros [|y b] L H; try discriminate; constructor.
    + specialize (H 0%nat ltac:(cbn; lia)). cbn in H. split; [exact H|apply mul4_inv_comm; exact H].
    + apply IH; [cbn in L; lia|]. intros i Hi. apply (H (S i)). cbn; lia.
  - intros H. split; [eapply Forall2_length; exact H|]. induction H as [|x y a b Hxy H IH]; cbn; [lia|].
    intros [|i] Hi; [apply Hxy|apply IH; lia].
Qed.

(* ---- the API preserves well-formedness ---- *)
Lemma index1_lt n i j : index1 n i = Ok j -> (j < n)%nat.
Proof.
  unfold index1. destruct ((i <? - Z.of_nat n) || (Z.of_nat n <=? i))%Z eqn:E; [discriminate|].
  apply orb_false_iff in E. destruct E as [E1 E2]. apply Z.ltb_ge in E1. apply Z.leb_gt in E2.
  intros H; injection H as <-. destruct (i <? 0)%Z eqn:E3; [apply Z.ltb_lt in E3|apply Z.ltb_ge in E3]; lia.
Qed.
Lemma take_index_in {A} (l : list A) ix out x : take_index l ix = Ok out -> In x out -> In x l.
Proof.
  destruct ix as [i|is_|b]; cbn [take_index].
  - destruct (index1 _ _) as [j|] eqn:Ej; [|discriminate]. cbn [rbind].
    destruct (rget l j) eqn:E; [|discriminate]. cbn [rbind]. intros H; injection H as <-.
    intros [->|[]]. unfold rget in E. destruct (nth_error l j) eqn:E'; [|discriminate]. injection E as ->. eapply nth_error_In; exact E'.
  - intros H. apply rmap_Forall2 in H. induction H as [|i y is_ out Hy H IH]; [intros []|].
    intros [->|Hx]; [|apply IH; exact Hx].
    destruct (index1 _ _) as [j|] eqn:Ej; [|discriminate]. cbn [rbind] in Hy.
    unfold rget in Hy. destruct (nth_error l j) eqn:E'; [|discriminate]. injection Hy as ->. eapply nth_error_In; exact E'.
  - destruct (_ =? _)%nat; [|discriminate]. intros H; injection H as <-. intros Hx.
    apply in_map_iff in Hx. destruct Hx as ([b' y] & <- & Hx). apply filter_In in Hx. destruct Hx as [Hx _].
    eapply in_combine_r; exact Hx.
Qed.

Lemma wf_generic m ts : Forall wf ts -> wf (TR KGeneric m ts).
Proof.
  intros H. apply wf_eq. split; [apply Forall_forall; intros; exact I|]. split; [exact H|congruence].
Qed.

Lemma wf_inverse_parts : forall t u, inverse_parts t = Ok u -> wf u.
Proof.
  apply (transform_rect' (fun t => forall u, inverse_parts t = Ok u -> wf u)).
  intros k m ts IH u. rewrite inverse_parts_eq.
  destruct (rmap (kind_inverse k) m) as [im|]; [|discriminate]. cbn [rbind].
  destruct ts as [|t0 ts0] eqn:Ets.
  - intros H; injection H as <-. apply wf_generic. constructor.
  - rewrite <- Ets in *. clear Ets t0 ts0. destruct (rmap inverse_parts ts) as [its|] eqn:E; [|discriminate].
    cbn [rbind]. intros H; injection H as <-. apply wf_generic. apply rmap_Forall2 in E.
    apply Forall_app; split; [|constructor; [apply wf_generic; constructor|constructor]].
    apply Forall_rev. clear - IH E. induction E; constructor; inversion IH; subst; auto.
Qed.

Lemma wf_clone : forall t, wf (clone t).
Proof.
  apply (transform_rect' (fun t => wf (clone t))).
  intros k m ts IH. cbn [clone]. apply wf_generic. apply Forall_map. exact IH.
Qed.

Lemma mk_translate_ok x y z t : mk_translate x y z = Ok t -> exists v, handle_input x y z false = Ok v /\ t = TR KTranslate (map translate_mat v) [].
Proof. unfold mk_translate. destruct (handle_input x y z false) as [v|]; [|discriminate]. intros H; injection H as <-. exists v. auto. Qed.
Lemma mk_scale_ok x y z t : mk_scale x y z = Ok t -> exists v, handle_input x y z true = Ok v /\ t = TR KScale (map scale_mat v) [].
Proof. unfold mk_scale. destruct (handle_input x y z true) as [v|]; [|discriminate]. intros H; injection H as <-. exists v. auto. Qed.
Lemma wf_translate x y z t : mk_translate x y z = Ok t -> wf t.
Proof.
  intros H. apply mk_translate_ok in H. destruct H as (v & _ & ->). apply wf_eq. split; [|split; [constructor|reflexivity]].
  apply Forall_map, Forall_forall. intros p _. exists p. reflexivity.
Qed.
Lemma wf_scale x y z t : mk_scale x y z = Ok t -> wf t.
Proof.
  intros H. apply mk_scale_ok in H. destruct H as (v & _ & ->). apply wf_eq. split; [|split; [constructor|reflexivity]].
  apply Forall_map, Forall_forall. intros p _. exists p. reflexivity.
Qed.
Lemma wf_rotate rs : (forall r, In r rs -> orthogonal r) -> wf (mk_rotate rs).
Proof.
  intros H. apply wf_eq. split; [|split; [constructor|reflexivity]].
  apply Forall_map, Forall_forall. intros r Hr. exists r. auto.
Qed.
Lemma wf_axis c a d t : mk_axis_angle c a d = Ok t -> wf t.
Proof.
  unfold mk_axis_angle. destruct (handle_angle c) as [ang|]; [|discriminate]. cbn [rbind].
  intros H; injection H as <-. apply wf_eq. split; [|split; [constructor|reflexivity]].
  apply Forall_map, Forall_forall. intros x _. eexists. split; [reflexivity|]. apply axis_rot_orthogonal.
Qed.

Lemma wf_list t : wf t -> Forall wf (t_list t).
Proof. destruct t as [k m ts]. intros H. apply wf_eq in H. apply H. Qed.

Lemma built_wf t : built t -> wf t.
Proof.
  revert t. fix F 2. intros t H. destruct H.
  - apply wf_generic; constructor.
  - apply wf_generic; constructor.
  - eapply wf_translate; eassumption.
  - eapply wf_scale; eassumption.
  - apply wf_rotate; assumption.
  - eapply wf_axis; eassumption.
  - apply wf_generic. apply Forall_app. split.
    + apply wf_list. apply F. assumption.
    + apply Forall_forall. intros o Ho. apply F. apply H0. exact Ho.
  - destruct c; cbn [inverse] in H0.
    + destruct (get_matrix t) as [m|]; [|discriminate]. cbn [rbind] in H0. destruct (rmap inv4 m); [|discriminate].
      injection H0 as <-. apply wf_generic. constructor.
    + eapply wf_inverse_parts; eassumption.
  - unfold stack in H1. destruct (rmap get_matrix (t :: os)); [|discriminate]. injection H1 as <-. apply wf_generic; constructor.
  - apply wf_clone.
  - unfold getitem in H0. destruct (get_matrix t) as [m|] eqn:Em; [|discriminate]. cbn [rbind] in H0.
    destruct (take_index m ix) as [mi|] eqn:Ei; [|discriminate]. cbn [rbind] in H0.
    assert (W : wf t) by (apply F; assumption).
    destruct t as [k m0 ts]. cbn [t_kind] in H0. destruct k.
    + injection H0 as <-. apply wf_generic; constructor.
    + eapply wf_translate; eassumption.
    + eapply wf_scale; eassumption.
    + injection H0 as <-. apply wf_rotate. intros r Hr. apply in_map_iff in Hr. destruct Hr as (a & <- & Ha).
      apply (take_index_in _ _ _ _ Ei) in Ha. apply wf_eq in W. destruct W as (W1 & _ & W2).
      rewrite W2 in Em by discriminate. cbn in Em. injection Em as <-.
      rewrite Forall_forall in W1. destruct (W1 _ Ha) as (r & -> & Hr). destruct r; exact Hr.
    + eapply wf_axis; eassumption.
Qed.
