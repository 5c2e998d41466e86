From Verif Require Import Base RBase Knn KnnSpec KnnProofs Chamfer ChamferSpec ChamferProofs ChamferProofs2 ChamferProofs3 ChamferProofs4 ChamferProofs5 ChamferProofs6.
Local Open Scope R_scope.
Lemma bad_lengths x l n : l <> [] -> (length l <> length (t_data x) \/ exists k, In k l /\ (t_points x < k)%nat) -> handle_input (FromTensor x) (Some l) n = Fail EValue.
Proof.
  intros N H. unfold handle_input. destruct (Nat.eqb_spec (length l) (length (t_data x))) as [E|E]; [|reflexivity]. cbn [negb]. destruct H as [H|(k & Hk & L)]; [contradiction|]. destruct l as [|a l]; [contradiction|].
  assert (G : forall xs y, In y xs -> (y <= max_nat xs)%nat) by (clear; intros xs y; unfold max_nat; induction xs as [|z xs IH]; [intros []|]; cbn; intros [->|H]; [lia|specialize (IH H); lia]).
  specialize (G _ _ Hk). destruct (Nat.ltb_spec (t_points x) (max_nat (a :: l))); [reflexivity|lia].
Qed.
Lemma rejects_lengths sort px py oxl oyl oxn oyn w b p norm single ab :
  (exists x l, px = FromTensor x /\ oxl = Some l /\ l <> [] /\ (length l <> length (t_data x) \/ exists n, In n l /\ (t_points x < n)%nat)) \/
  (exists x xl y l, shown px oxl x xl /\ well_shaped x xl /\ oxn = None /\ py = FromTensor y /\ oyl = Some l /\ l <> [] /\ (length l <> length (t_data y) \/ exists n, In n l /\ (t_points y < n)%nat)) ->
  chamfer_distance sort px py oxl oyl oxn oyn w b p norm single ab = Fail EValue.
Proof.
  intros H. unfold chamfer_distance. destruct (negb (valid_reductions b p)); [reflexivity|]. destruct (negb _); [reflexivity|]. match goal with |- (if ?c then _ else _) = _ => destruct c; [reflexivity|] end.
  destruct H as [(x & l & -> & -> & N & H)|(x & xl & y & l & S & W & -> & -> & -> & N & H)].
  - rewrite (bad_lengths x l oxn N H). reflexivity.
  - rewrite (shown_ok px oxl x xl S W). cbn [rbind]. rewrite (bad_lengths y l oyn N H). reflexivity.
Qed.
