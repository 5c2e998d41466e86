(* The suffix of a Path. *)
From Coq Require Import Ascii String.
From Verif Require Import Base Pluggable PluggableSpec PluggableProofs.
Local Open Scope list_scope.

Fixpoint dotless (s : string) : bool := match s with EmptyString => true | String c s => negb (Ascii.eqb c "."%char) && dotless s end.
Lemma lower_dot c : Ascii.eqb (lower_char c) "."%char = Ascii.eqb c "."%char.
Proof. apply Bool.eqb_prop. revert c. apply (all_chars (fun c => Bool.eqb (Ascii.eqb (lower_char c) "."%char) (Ascii.eqb c "."%char))). vm_compute. reflexivity. Qed.
Lemma lower_dotless s : dotless (lower s) = dotless s.
Proof. induction s as [|c s IH]; [reflexivity|]. cbn. rewrite lower_dot, IH. reflexivity. Qed.
Lemma last_dot_none s : last_dot s = None <-> dotless s = true.
Proof.
  induction s as [|c s IH]; [split; reflexivity|]. cbn. destruct (last_dot s); split; intros H; try discriminate.
  - apply andb_prop in H. destruct H as (_ & H). apply IH in H. discriminate.
  - destruct (Ascii.eqb c "."%char); [discriminate|]. cbn. apply IH. reflexivity.
  - apply andb_prop in H. destruct H as (H & _). destruct (Ascii.eqb c "."%char); [discriminate|reflexivity].
Qed.
Lemma last_dot_split s r : last_dot s = Some r -> exists a, s = append a r.
Proof.
  revert r. induction s as [|c s IH]; intros r; cbn; [discriminate|]. destruct (last_dot s) as [r'|].
  - intros E. injection E as <-. destruct (IH r' eq_refl) as (a & ->). exists (String c a). reflexivity.
  - destruct (Ascii.eqb c "."%char); [|discriminate]. intros E. injection E as <-. exists EmptyString. reflexivity.
Qed.
Lemma last_dot_app a t : dotless t = true -> last_dot (append a (String "."%char t)) = Some (String "."%char t).
Proof. intros H. apply last_dot_none in H. induction a as [|c a IH]; cbn; [rewrite H; reflexivity|]. rewrite IH. reflexivity. Qed.
Lemma endswith_path name c t : lower (String c t) = String c t -> dotless (String c t) = true ->
  endswith (PPath name) [String "."%char (String c t)] = true <-> path_ends name (String "."%char (String c t)).
Proof.
  intros HL HD. assert (HL' : lower (String "."%char (String c t)) = String "."%char (String c t)) by (cbn [lower] in *; rewrite HL; reflexivity).
  unfold endswith. cbn [existsb]. rewrite Bool.orb_false_r, String.eqb_eq. unfold path_ends. split.
  - intros E. unfold path_suffix in E. destruct name as [|c0 rest]; [discriminate|]. destruct (last_dot rest) as [[|d [|d' r]]|] eqn:EL; try discriminate. destruct (last_dot_split _ _ EL) as (a & ->). exists (String c0 a), (String d (String d' r)). split; [discriminate|]. split; [reflexivity|]. apply text_lower. rewrite E, HL'. reflexivity.
  - intros (stem & tail & HS & -> & HT). apply text_lower in HT. rewrite HL' in HT. destruct stem as [|c0 a]; [contradiction|]. destruct tail as [|d [|d' r]]; try discriminate. cbn [lower] in HT. injection HT as E1 E2 E3.
    assert (d = "."%char). { apply Ascii.eqb_eq. rewrite <- lower_dot, E1. reflexivity. } subst d.
    assert (HD' : dotless (String d' r) = true). { rewrite <- lower_dotless. cbn [lower]. rewrite E2, E3. exact HD. }
    cbn [append path_suffix]. rewrite (last_dot_app a _ HD'). cbn [lower]. rewrite E2, E3. reflexivity.
Qed.
