(* Property C79: batched properties (lights, materials, cameras) are read and written element by element. *)
From Coq Require Import String Lra.
From Verif Require Import Base RBase Tens Accessor AccessorSpec.
From Verif Require Import AccessorProofs AccessorProofs2 AccessorProofs3 AccessorProofs4.
Local Open Scope nat_scope.

Definition col (l : list R) : tensor := T [List.length l] (fun idx => nth (hd 0 idx) l 0%R).

(* construction: every tensor argument has one row or as many as the object, its length is that of some
   argument, and element i shows row i, or the only row *)
Theorem properties_built : forall st kw st', reachable st -> NoDup (map fst kw) -> construct st kw = Ok st' ->
  exists ob, nth_error (objects st') (List.length (objects st)) = Some ob /\
    (forall name a t, In (name, a) kw -> content st a = Some t ->
       (size_of t = 1 \/ size_of t = count ob) /\ size_of t <= count ob /\
       (forall i, i < count ob -> agree (getitem st' (List.length (objects st)) (elem i) name)
                                       (Ok (T (List.tl (shp t)) (fun js => get t ((if size_of t =? 1 then 0 else i) :: js))))) /\
       (forall i, count ob <= i -> getitem st' (List.length (objects st)) (elem i) name = Fail EIndex)) /\
    ((forall name a, In (name, a) kw -> content st a = None) \/ exists name a t, In (name, a) kw /\ content st a = Some t /\ size_of t = count ob).
Proof. intros st kw st' H. apply built_eval, reachable_good, H. Qed.
Print Assumptions properties_built.

(* different numbers of rows, none of them one, are refused *)
Theorem properties_refused : forall st kw n1 a1 t1 n2 a2 t2, reachable st ->
  (forall name k, In (name, Held k) kw -> exists t, tensor_of st k = Some t /\ shp t <> []) ->
  In (n1, a1) kw -> content st a1 = Some t1 -> In (n2, a2) kw -> content st a2 = Some t2 ->
  size_of t1 <> 1 -> size_of t2 <> 1 -> size_of t1 <> size_of t2 -> construct st kw = Fail EValue.
Proof. intros st kw n1 a1 t1 n2 a2 t2 H. apply refuses_eval, reachable_good, H. Qed.
Print Assumptions properties_refused.

(* what was assigned to an element or a slice is read back from it *)
Theorem assigned_read_back : forall st o ix name value st', setitem st o ix name value = Ok st' -> shows (getitem st' o ix name) value.
Proof. exact set_then_get. Qed.
Print Assumptions assigned_read_back.

(* a value whose rows have another shape than the elements is refused *)
Theorem assigned_shape_refused : forall st o ix i name value t, getitem st o (elem i) name = Ok t -> shp t <> [] ->
  (2 <= List.length (shp value))%nat -> tl (shp value) <> shp t -> setitem st o ix name value = Fail EValue.
Proof.
  intros st o ix i name value t. unfold getitem, setitem. destruct (nth_error (objects st) o) as [ob|]; [|discriminate].
  destruct (lookup ob name) as [[v|]|]; try discriminate. destruct (span (rows v) (elem i)) as [p|]; [|discriminate]. cbn [rbind].
  destruct (nth_error (memory st) (block v)) as [m|]; [|discriminate]. intros E. injection E as <-. cbn [shp dims elem]. intros N L D.
  destruct (tail v) as [|d ds] eqn:Tv; [contradiction|]. replace (1 <? List.length (shp value))%nat with true by (symmetry; apply Nat.ltb_lt; lia).
  unfold shape_eqb. destruct (list_eq_dec Nat.eq_dec (tl (shp value)) (d :: ds)) as [Q|Q]; [contradiction|]. reflexivity.
Qed.
Print Assumptions assigned_shape_refused.
Example shape_refused_ex : exists st t, getitem st 0 (elem 0) "x" = Ok t /\ shp t = [2%nat] /\ tl (shp (T [1; 3]%nat (fun _ => 0%R))) <> shp t.
Proof.
  exists (run empty [New [("x"%string, Data (T [1; 2]%nat (fun _ => 0%R)))]]). eexists. split; [reflexivity|]. split; [reflexivity|discriminate].
Qed.

(* clone copies everything *)
Theorem clone_same : forall st o st', reachable st -> clone st o = Ok st' ->
  forall ix name, agree (getitem st' (List.length (objects st)) ix name) (getitem st o ix name).
Proof. intros st o st' H. apply clone_reads, reachable_good, H. Qed.
Print Assumptions clone_same.

(* a clone is independent: whatever the program does, in any order, to other objects, to the tensors that the
   user holds, with more clones and new objects, the clone stays as it is ... *)
Theorem clone_untouched : forall st o st' xs, reachable st -> clone st o = Ok st' ->
  forallb (fun x => negb (changes (List.length (objects st)) x)) xs = true ->
  forall ix name, getitem (run st' xs) (List.length (objects st)) ix name = getitem st' (List.length (objects st)) ix name.
Proof.
  intros st o st' xs H C F. apply reachable_good in H. destruct (clone_owns _ _ _ H C) as (O & _). apply untouched_run; [exact (good_step _ (Clone o) _ H C)|exact O|exact F].
Qed.
Print Assumptions clone_untouched.

(* ... and changes of the clone, at any later time, reach no other object and no tensor of the user *)
Theorem clone_alone : forall st o st' xs ys, reachable st -> clone st o = Ok st' ->
  forallb (changes (List.length (objects st))) ys = true ->
  (forall o' ix name, o' <> List.length (objects st) -> getitem (run (run st' xs) ys) o' ix name = getitem (run st' xs) o' ix name) /\
  (forall k, tensor_of (run (run st' xs) ys) k = tensor_of (run st' xs) k).
Proof.
  intros st o st' xs ys H C F. apply reachable_good in H. destruct (clone_owns _ _ _ H C) as (O & _).
  pose proof (good_step _ (Clone o) _ H C) as G. apply only_run; [now apply good_run|now apply owns_run|exact F].
Qed.
Print Assumptions clone_alone.

(* assignments to elements of a clone, at any later time, change that element of that attribute only *)
Theorem clone_elements : forall st o st' xs c i name value st'', reachable st -> clone st o = Ok st' -> c = List.length (objects st) ->
  setitem (run st' xs) c (elem i) name value = Ok st'' ->
  forall name' j, name' <> name \/ j <> i -> agree (getitem st'' c (elem j) name') (getitem (run st' xs) c (elem j) name').
Proof.
  intros st o st' xs c i name value st'' H C -> S name' j D. apply reachable_good in H. destruct (clone_owns _ _ _ H C) as (O & SG).
  pose proof (good_step _ (Clone o) _ H C) as G.
  eapply set_isolated; [now apply good_run|now apply owns_run| |exact S|].
  - apply single_run; [exact G| |exact SG]. destruct O as (ob & N & _). eapply nth_len; exact N.
  - destruct D as [D|D]; [left; exact D|right]. intros s m n _ SP _ Q.
    destruct (Nat.lt_ge_cases i n) as [L|L]; [rewrite span_elem in SP by exact L|rewrite span_elem_out in SP by exact L; discriminate].
    injection SP as <- <-. lia.
Qed.
Print Assumptions clone_elements.

(* gather_props: element b is the old element idx[b]; attributes with one row stay *)
Theorem gather_rows : forall st o idx st' name, reachable st -> gather_props st o idx = Ok st' ->
  (forall t, getitem st o (elem 1) name = Ok t ->
     (forall b i, nth_error idx b = Some i -> agree (getitem st' o (elem b) name) (getitem st o (elem i) name) /\ exists u, getitem st o (elem i) name = Ok u) /\
     (forall b, List.length idx <= b -> getitem st' o (elem b) name = Fail EIndex)) /\
  (getitem st o (elem 1) name = Fail EIndex -> forall ix, getitem st' o ix name = getitem st o ix name).
Proof. intros st o idx st' name H. apply gather_reads, reachable_good, H. Qed.
Print Assumptions gather_rows.

(* a program that meets the hypotheses: x shared, y per element, a clone, then a change of the clone *)
Definition made : state := run empty [New [("x"%string, Data (col [10%R])); ("y"%string, Data (col [100; 200]%R)); ("flag"%string, Flag)]].
Definition succeeds {A : Type} (r : result A) : bool := match r with Ok _ => true | Fail _ => false end.
Example accessor_ex :
  reachable made /\ succeeds (st' <- clone made 0 ;; setitem st' 1 (elem 0) "x" (col [5%R])) = true /\
  succeeds (gather_props made 0 [1; 0; 1]) = true /\ succeeds (getitem made 0 (elem 1) "y") = true /\ getitem made 0 (elem 0) "flag" = Fail EType.
Proof. split; [eexists; reflexivity|]. repeat split; vm_compute; reflexivity. Qed.

(* assigning to one element changes no other element: false for attributes that the constructor broadcast *)
Theorem element_alone_refuted : ~ (forall st o i name value st', reachable st -> setitem st o (elem i) name value = Ok st' ->
  forall j, j <> i -> agree (getitem st' o (elem j) name) (getitem st o (elem j) name)).
Proof.
  intros H. assert (R : reachable made) by (eexists; reflexivity).
  pose proof (H made 0 0 "x"%string (col [5%R]) _ R eq_refl 1 ltac:(discriminate)) as Q.
  cbn in Q. destruct Q as (_ & Q). specialize (Q [] ltac:(constructor)). cbn in Q. lra.
Qed.
Print Assumptions element_alone_refuted.

(* assigning to an element of one object changes no other object and no tensor of the user: false for objects
   made from the user's tensor *)
Theorem object_alone_refuted : ~ (forall st o i name value st', reachable st -> setitem st o (elem i) name value = Ok st' ->
  (forall o' ix name', o' <> o -> agree (getitem st' o' ix name') (getitem st o' ix name')) /\ forall k, tensor_of st' k = tensor_of st k).
Proof.
  intros H. set (st := run empty [Allocate (col [1; 2]%R); New [("x"%string, Held 0)]; New [("x"%string, Held 0)]]).
  assert (R : reachable st) by (eexists; reflexivity).
  destruct (H st 0 0 "x"%string (col [5%R]) _ R eq_refl) as (Q & _).
  specialize (Q 1 (elem 0) "x"%string ltac:(discriminate)). cbn in Q. destruct Q as (_ & Q). specialize (Q [] ltac:(constructor)). cbn in Q. lra.
Qed.
Print Assumptions object_alone_refuted.

(* len(obj) is the number of elements: false after gather_props *)
Theorem length_refuted : ~ (forall st o ob name i, reachable st -> nth_error (objects st) o = Some ob ->
  count ob <= i -> (exists t, getitem st o (elem 0) name = Ok t) -> getitem st o (elem i) name = Fail EIndex).
Proof.
  intros H. set (st := run made [Gather 0 [1; 0; 1]]).
  assert (R : reachable st) by (eexists (_ :: [_]); reflexivity).
  assert (E : exists ob, nth_error (objects st) 0 = Some ob /\ count ob <= 2).
  { assert (V : match nth_error (objects st) 0 with Some ob => count ob | None => 3 end = 2) by (vm_compute; reflexivity).
    destruct (nth_error (objects st) 0) as [ob|]; [|discriminate V]. exists ob. split; [reflexivity|rewrite V; constructor]. }
  assert (A : succeeds (getitem st 0 (elem 0) "y") = true) by (vm_compute; reflexivity).
  assert (B : succeeds (getitem st 0 (elem 2) "y") = true) by (vm_compute; reflexivity).
  destruct E as (ob & E & C). destruct (getitem st 0 (elem 0) "y") as [t|] eqn:G; [|discriminate A].
  rewrite (H st 0 ob "y"%string 2 R E C (ex_intro _ t G)) in B. discriminate B.
Qed.
Print Assumptions length_refuted.
