(* What the registry of file formats is meant to do. *)
From Coq Require Import Ascii String.
From Verif Require Import Base Pluggable.
Local Open Scope list_scope.

Section Spec.
Context {S D O : Type}.
(* the formats a user registered, in the order of registration *)
Fixpoint registered (cs : list (call S D O)) : list (interpreter S D O) :=
  match cs with
  | [] => []
  | Register (Some i) :: cs => i :: registered cs
  | _ :: cs => registered cs
  end.
(* out is what the last registered format that does not decline says, or an error if all decline *)
Definition last_that_accepts {A} (formats : list (interpreter S D O)) (ask : interpreter S D O -> result (option A)) (out : result A) : Prop :=
  (exists before i after, formats = before ++ i :: after /\ (forall j, In j after -> ask j = Ok None) /\
     ((exists a, ask i = Ok (Some a) /\ out = Ok a) \/ (exists e, ask i = Fail e /\ out = Fail e))) \/
  ((forall j, In j formats -> ask j = Ok None) /\ out = Fail EValue).
(* a format that declines to save leaves the files alone *)
Definition polite (i : interpreter S D O) : Prop := forall s d p o s', save i s d p o = (s', Ok false) -> s' = s.
(* asking a format to save: declined, or the files afterwards and the outcome *)
Definition ask_save (s : S) (d : D) (p : path) (o : O) (i : interpreter S D O) : option (S * result unit) :=
  match save i s d p o with (s', Ok true) => Some (s', Ok tt) | (_, Ok false) => None | (s', Fail e) => Some (s', Fail e) end.
Definition last_that_saves (formats : list (interpreter S D O)) (s : S) (d : D) (p : path) (o : O) (out : S * result unit) : Prop :=
  (exists before i after, formats = before ++ i :: after /\ (forall j, In j after -> ask_save s d p o j = None) /\ ask_save s d p o i = Some out) \/
  ((forall j, In j formats -> ask_save s d p o j = None) /\ out = (s, Fail EValue)).
End Spec.

(* the string ends with the suffix, upper and lower case letters being the same *)
Definition same_letter (a b : ascii) : Prop := a = b \/ exists n, (65 <= n <= 90)%nat /\ ((a = ascii_of_nat n /\ b = ascii_of_nat (n + 32)) \/ (b = ascii_of_nat n /\ a = ascii_of_nat (n + 32))).
Fixpoint same_text (a b : string) : Prop :=
  match a, b with EmptyString, EmptyString => True | String x a, String y b => same_letter x y /\ same_text a b | _, _ => False end.
Definition has_suffix (s suffix : string) : Prop := exists stem tail, s = append stem tail /\ same_text tail suffix.
(* the name of a Path ends with the suffix and has something before it *)
Definition path_ends (name suffix : string) : Prop := exists stem tail, stem <> EmptyString /\ name = append stem tail /\ same_text tail suffix.
