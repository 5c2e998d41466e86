(* Real-number helpers shared by the numeric models. *)
From Coq Require Export Reals Lra Psatz.
From Verif Require Export Base.
Local Open Scope R_scope.

Definition Rltb (a b : R) : bool := if Rlt_dec a b then true else false.
Definition Rleb (a b : R) : bool := if Rle_dec a b then true else false.
Definition Reqb (a b : R) : bool := if Req_EM_T a b then true else false.

Lemma Rltb_spec a b : Bool.reflect (a < b) (Rltb a b).
Proof. unfold Rltb; destruct (Rlt_dec a b); constructor; assumption. Qed.
Lemma Rleb_spec a b : Bool.reflect (a <= b) (Rleb a b).
Proof. unfold Rleb; destruct (Rle_dec a b); constructor; assumption. Qed.
Lemma Reqb_spec a b : Bool.reflect (a = b) (Reqb a b).
Proof. unfold Reqb; destruct (Req_EM_T a b); constructor; assumption. Qed.
Lemma Rltb_true a b : Rltb a b = true <-> a < b.
Proof. destruct (Rltb_spec a b); split; intros; auto; try discriminate; lra. Qed.
Lemma Rltb_false a b : Rltb a b = false <-> b <= a.
Proof. destruct (Rltb_spec a b); split; intros; auto; try discriminate; lra. Qed.
Lemma Rleb_true a b : Rleb a b = true <-> a <= b.
Proof. destruct (Rleb_spec a b); split; intros; auto; try discriminate; lra. Qed.
Lemma Rleb_false a b : Rleb a b = false <-> b < a.
Proof. destruct (Rleb_spec a b); split; intros; auto; try discriminate; lra. Qed.

(* sum of a list *)
Definition rsum (l : list R) : R := fold_right Rplus 0 l.
(* sum_{i<n} f i *)
Definition sumf (n : nat) (f : nat -> R) : R := rsum (map f (seq 0 n)).
Definition rprod (l : list R) : R := fold_right Rmult 1 l.

Lemma rsum_app l m : rsum (l ++ m) = rsum l + rsum m.
Proof. induction l as [|a l IH]; cbn; unfold rsum in *; [lra|]. cbn. rewrite IH. lra. Qed.
Lemma rsum_cons a l : rsum (a :: l) = a + rsum l.
Proof. reflexivity. Qed.
Lemma rsum_nil : rsum [] = 0.
Proof. reflexivity. Qed.
Lemma rprod_app l m : rprod (l ++ m) = rprod l * rprod m.
Proof. induction l as [|a l IH]; cbn; unfold rprod in *; [lra|]. cbn. rewrite IH. lra. Qed.
Lemma rsum_perm l m : Permutation l m -> rsum l = rsum m.
Proof. induction 1; cbn in *; unfold rsum in *; cbn; lra. Qed.
Lemma rprod_perm l m : Permutation l m -> rprod l = rprod m.
Proof. induction 1; cbn in *; unfold rprod in *; cbn; try lra. rewrite IHPermutation; lra. Qed.

Lemma rsum_map_plus {A} (f g : A -> R) l : rsum (map (fun x => f x + g x) l) = rsum (map f l) + rsum (map g l).
Proof. induction l as [|a l IH]; cbn; unfold rsum in *; cbn; [lra|]. rewrite IH. lra. Qed.
Lemma rsum_map_scal {A} c (f : A -> R) l : rsum (map (fun x => c * f x) l) = c * rsum (map f l).
Proof. induction l as [|a l IH]; cbn; unfold rsum in *; cbn; [lra|]. rewrite IH. lra. Qed.
Lemma rsum_map_ext {A} (f g : A -> R) l : (forall a, In a l -> f a = g a) -> rsum (map f l) = rsum (map g l).
Proof. intros H. f_equal. apply map_ext_in. assumption. Qed.
Lemma rsum_map_zero {A} (f : A -> R) l : (forall a, In a l -> f a = 0) -> rsum (map f l) = 0.
Proof.
  intros H. induction l as [|a l IH]; [reflexivity|]. cbn [map]. rewrite rsum_cons, H by (left; reflexivity).
  rewrite IH by (intros; apply H; right; assumption). lra.
Qed.
Lemma rsum_nonneg l : Forall (fun x => 0 <= x) l -> 0 <= rsum l.
Proof. induction 1; cbn; unfold rsum in *; cbn; lra. Qed.
Lemma rsum_map_le {A} (f g : A -> R) l : (forall a, In a l -> f a <= g a) -> rsum (map f l) <= rsum (map g l).
Proof.
  intros H. induction l as [|a l IH]; [cbn; lra|]. cbn [map]. rewrite !rsum_cons.
  apply Rplus_le_compat; [apply H; left; reflexivity|]. apply IH; intros; apply H; right; assumption.
Qed.

Lemma sumf_S n f : sumf (S n) f = sumf n f + f n.
Proof. unfold sumf. rewrite seq_S, map_app, rsum_app. cbn. lra. Qed.
Lemma sumf_0 f : sumf 0 f = 0.
Proof. reflexivity. Qed.
Lemma sumf_ext n f g : (forall i, (i < n)%nat -> f i = g i) -> sumf n f = sumf n g.
Proof. intros H. apply rsum_map_ext. intros a Ha. apply in_seq in Ha. apply H; lia. Qed.
Lemma sumf_plus n f g : sumf n (fun i => f i + g i) = sumf n f + sumf n g.
Proof. apply rsum_map_plus. Qed.
Lemma sumf_scal n c f : sumf n (fun i => c * f i) = c * sumf n f.
Proof. apply rsum_map_scal. Qed.
Lemma sumf_zero n f : (forall i, (i < n)%nat -> f i = 0) -> sumf n f = 0.
Proof. intros H. apply rsum_map_zero. intros a Ha. apply in_seq in Ha. apply H; lia. Qed.
(* a sum with one non-zero term *)
Lemma sumf_single n k c : (k < n)%nat -> sumf n (fun i => if Nat.eqb i k then c else 0) = c.
Proof.
  induction n as [|n IH]; intros H; [lia|]. rewrite sumf_S.
  destruct (Nat.eqb_spec n k) as [->|N].
  - rewrite sumf_zero; [lra|]. intros i Hi. destruct (Nat.eqb_spec i k); [lia|reflexivity].
  - rewrite IH by lia. lra.
Qed.
Lemma sumf_comm n m (f : nat -> nat -> R) :
  sumf n (fun i => sumf m (fun j => f i j)) = sumf m (fun j => sumf n (fun i => f i j)).
Proof.
  induction n as [|n IH]; [symmetry; apply sumf_zero; reflexivity|].
  rewrite sumf_S, IH, <- sumf_plus. apply sumf_ext. intros j _. rewrite sumf_S. reflexivity.
Qed.
Lemma sumf_nonneg n f : (forall i, (i < n)%nat -> 0 <= f i) -> 0 <= sumf n f.
Proof. induction n as [|n IH]; intros H; [cbn; lra|]. rewrite sumf_S. assert (0 <= f n) by auto. assert (0 <= sumf n f) by auto. lra. Qed.
Lemma sumf_le n f g : (forall i, (i < n)%nat -> f i <= g i) -> sumf n f <= sumf n g.
Proof. induction n as [|n IH]; intros H; [cbn; lra|]. rewrite !sumf_S. assert (f n <= g n) by auto. assert (sumf n f <= sumf n g) by auto. lra. Qed.

(* derivative of finite sums *)
Lemma deriv_const c x : derivable_pt_lim (fun _ => c) x 0.
Proof. apply derivable_pt_lim_const. Qed.
Lemma deriv_ext f g x l : (forall t, f t = g t) -> derivable_pt_lim g x l -> derivable_pt_lim f x l.
Proof.
  intros H D eps He. destruct (D eps He) as [d Hd]. exists d. intros h h0 hd. rewrite !H. apply Hd; assumption.
Qed.
Lemma deriv_val f x l l' : l = l' -> derivable_pt_lim f x l -> derivable_pt_lim f x l'.
Proof. intros ->; auto. Qed.
Lemma deriv_plus f g x a b : derivable_pt_lim f x a -> derivable_pt_lim g x b ->
  derivable_pt_lim (fun t => f t + g t) x (a + b).
Proof. intros; apply (derivable_pt_lim_plus f g); assumption. Qed.
Lemma deriv_scal c f x a : derivable_pt_lim f x a -> derivable_pt_lim (fun t => c * f t) x (c * a).
Proof. intros; apply (derivable_pt_lim_scal f c); assumption. Qed.
Lemma deriv_mult f g x a b : derivable_pt_lim f x a -> derivable_pt_lim g x b ->
  derivable_pt_lim (fun t => f t * g t) x (a * g x + f x * b).
Proof. intros; apply (derivable_pt_lim_mult f g); assumption. Qed.
Lemma deriv_id x : derivable_pt_lim (fun t => t) x 1.
Proof. apply derivable_pt_lim_id. Qed.
Lemma deriv_rsum {A} (f : A -> R -> R) (d : A -> R) x l :
  (forall a, In a l -> derivable_pt_lim (f a) x (d a)) ->
  derivable_pt_lim (fun t => rsum (map (fun a => f a t) l)) x (rsum (map d l)).
Proof.
  induction l as [|a l IH]; intros H.
  - cbn. apply deriv_const.
  - cbn [map]. rewrite rsum_cons. apply (deriv_ext _ (fun t => f a t + rsum (map (fun a => f a t) l))); [reflexivity|].
    apply deriv_plus; [apply H; left; reflexivity|apply IH; intros; apply H; right; assumption].
Qed.
Lemma deriv_sumf n (f : nat -> R -> R) d x :
  (forall i, (i < n)%nat -> derivable_pt_lim (f i) x (d i)) ->
  derivable_pt_lim (fun t => sumf n (fun i => f i t)) x (sumf n d).
Proof. intros H. apply deriv_rsum. intros a Ha. apply in_seq in Ha. apply H; lia. Qed.
(* affine functions *)
Lemma deriv_affine f a b x : (forall t, f t = a + b * t) -> derivable_pt_lim f x b.
Proof.
  intros H. apply (deriv_ext _ (fun t => a + b * t)); [assumption|].
  apply (deriv_val _ _ (0 + b * 1)); [lra|]. apply deriv_plus; [apply deriv_const|].
  apply deriv_scal, deriv_id.
Qed.
