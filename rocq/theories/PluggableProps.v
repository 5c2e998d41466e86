(* C40: registered file formats. *)
From Coq Require Import Ascii String.
From Verif Require Import Base Pluggable PluggableSpec PluggableProofs PluggableProofs2.
Local Open Scope list_scope.

Section Formats.
Variables (S D O : Type).
(* After any history of calls, loading consults the formats from the last registered to the first (the
   built-in ones coming before those of the user) and returns what the first that does not decline says. *)
Theorem io_load_last_registered : forall size (defaults : list (interpreter S D O)) include cs s0 s p o,
  last_that_accepts ((if include : bool then defaults else []) ++ registered cs) (fun i => read i s p o)
    (load (fst (run size (new defaults include, s0) cs)) s p o).
Proof.
  intros size defaults include cs s0 s p o. rewrite run_reg. destruct include.
  - rewrite new_rev, <- rev_app_distr. apply load_spec.
  - cbn [new app]. rewrite app_nil_r. apply load_spec.
Qed.
(* and this determines the outcome *)
Theorem io_load_determined : forall (formats : list (interpreter S D O)) (ask : interpreter S D O -> result (option D)) o1 o2,
  last_that_accepts formats ask o1 -> last_that_accepts formats ask o2 -> o1 = o2.
Proof. intros formats ask. apply accepts_unique. Qed.

(* The same for saving, if formats that decline do not touch the files. *)
Theorem io_save_last_registered : forall size (defaults : list (interpreter S D O)) include cs s0 s d p t o,
  List.Forall polite ((if include : bool then defaults else []) ++ registered cs) -> size d = 1%nat ->
  last_that_saves ((if include then defaults else []) ++ registered cs) s d p o
    (save_data size (fst (run size (new defaults include, s0) cs)) s (Some d) p t o).
Proof.
  intros size defaults include cs s0 s d p t o HP Hd. unfold save_data. rewrite Hd, Nat.eqb_refl, run_reg. destruct include.
  - rewrite new_rev, <- rev_app_distr. apply save_spec. exact HP.
  - cbn [new app] in *. rewrite app_nil_r. apply save_spec. exact HP.
Qed.
(* Batches of another size and other objects are refused before any format is asked. *)
Theorem io_save_refuses : forall (size : D -> nat) (reg : list (interpreter S D O)) s data p t o,
  (forall d, data = Some d -> size d <> 1%nat) -> save_data size reg s data p t o = (s, Fail EValue).
Proof. intros size reg s [d|] p t o H; [|reflexivity]. unfold save_data. specialize (H d eq_refl). apply Nat.eqb_neq in H. rewrite H. reflexivity. Qed.
(* Objects that are not formats are refused and change nothing. *)
Theorem io_register_refuses : forall (reg : list (interpreter S D O)), register reg None = Fail EValue.
Proof. reflexivity. Qed.

(* The built-in formats look at the end of a str path, ignoring case. *)
Theorem builtin_mesh_formats : forall size s0 s o
    (obj off ply : S -> path -> O -> result D) (wobj woff wply : S -> D -> path -> O -> S * result unit) cs text,
  (forall i, In i (registered cs) -> read i s (PStr text) o = Ok None) ->
  let out := load (fst (run size (new [by_suffix ".obj" obj wobj; by_suffix ".off" off woff; by_suffix ".ply" ply wply] true, s0) cs)) s (PStr text) o in
  (has_suffix text ".obj" -> out = obj s (PStr text) o) /\
  (has_suffix text ".off" -> out = off s (PStr text) o) /\
  (has_suffix text ".ply" -> out = ply s (PStr text) o) /\
  (~ has_suffix text ".obj" -> ~ has_suffix text ".off" -> ~ has_suffix text ".ply" -> out = Fail EValue).
Proof.
  intros size s0 s o obj off ply wobj woff wply cs text HU out. unfold out. rewrite run_reg, new_rev. cbn [rev app].
  assert (SK : forall (l r : list (interpreter S D O)), (forall i, In i l -> read i s (PStr text) o = Ok None) -> load (l ++ r) s (PStr text) o = load r s (PStr text) o).
  { induction l as [|i l IH]; intros r H; [reflexivity|]. cbn [app load]. rewrite H by (left; reflexivity). cbn [rbind]. apply IH. intros; apply H; right; assumption. }
  rewrite SK by (intros i Hi; apply HU, in_rev, Hi).
  assert (L4 : forall x y, has_suffix text x -> has_suffix text y -> String.length x = String.length y -> lower x = lower y) by (intros; eapply suffix_unique; eassumption).
  assert (B : forall x, lower x = x -> (endswith (PStr text) [x] = true /\ has_suffix text x) \/ (endswith (PStr text) [x] = false /\ ~ has_suffix text x)).
  { intros x Hx. pose proof (endswith_str text x Hx) as (H1 & H2). destruct (endswith (PStr text) [x]); [left; split; [reflexivity|apply H1; reflexivity]|right; split; [reflexivity|intros C; apply H2 in C; discriminate]]. }
  destruct (B ".obj"%string eq_refl) as [(E1 & H1)|(E1 & H1)], (B ".off"%string eq_refl) as [(E2 & H2)|(E2 & H2)], (B ".ply"%string eq_refl) as [(E3 & H3)|(E3 & H3)];
    try (specialize (L4 _ _ H1 H2 eq_refl); discriminate); try (specialize (L4 _ _ H1 H3 eq_refl); discriminate); try (specialize (L4 _ _ H2 H3 eq_refl); discriminate);
    cbn [load by_suffix read]; rewrite E1, E2, E3; cbn [rbind]; (split; [|split; [|split]]); try contradiction; try reflexivity; intros _;
    match goal with |- rbind (rbind ?r _) _ = ?r => destruct r; reflexivity end.
Qed.
(* and at the suffix of a Path, ignoring case; a name that is only a suffix has none *)
Theorem builtin_mesh_formats_path : forall size s0 s o
    (obj off ply : S -> path -> O -> result D) (wobj woff wply : S -> D -> path -> O -> S * result unit) cs text,
  (forall i, In i (registered cs) -> read i s (PPath text) o = Ok None) ->
  let out := load (fst (run size (new [by_suffix ".obj" obj wobj; by_suffix ".off" off woff; by_suffix ".ply" ply wply] true, s0) cs)) s (PPath text) o in
  (path_ends text ".obj" -> out = obj s (PPath text) o) /\
  (path_ends text ".off" -> out = off s (PPath text) o) /\
  (path_ends text ".ply" -> out = ply s (PPath text) o) /\
  (~ path_ends text ".obj" -> ~ path_ends text ".off" -> ~ path_ends text ".ply" -> out = Fail EValue).
Proof.
  intros size s0 s o obj off ply wobj woff wply cs text HU out. unfold out. rewrite run_reg, new_rev. cbn [rev app].
  assert (SK : forall (l r : list (interpreter S D O)), (forall i, In i l -> read i s (PPath text) o = Ok None) -> load (l ++ r) s (PPath text) o = load r s (PPath text) o).
  { induction l as [|i l IH]; intros r H; [reflexivity|]. cbn [app load]. rewrite H by (left; reflexivity). cbn [rbind]. apply IH. intros; apply H; right; assumption. }
  rewrite SK by (intros i Hi; apply HU, in_rev, Hi).
  assert (L4 : forall x y, path_ends text x -> path_ends text y -> String.length x = String.length y -> lower x = lower y) by (intros x y (a1 & b1 & _ & E1 & T1) (a2 & b2 & _ & E2 & T2) HL; apply (suffix_unique text); [exists a1, b1; auto|exists a2, b2; auto|exact HL]).
  assert (B : forall c t, lower (String c t) = String c t -> dotless (String c t) = true -> (endswith (PPath text) [String "."%char (String c t)] = true /\ path_ends text (String "."%char (String c t))) \/ (endswith (PPath text) [String "."%char (String c t)] = false /\ ~ path_ends text (String "."%char (String c t)))).
  { intros c t Hx Hd. pose proof (endswith_path text c t Hx Hd) as (H1 & H2). destruct (endswith (PPath text) [String "."%char (String c t)]); [left; split; [reflexivity|apply H1; reflexivity]|right; split; [reflexivity|intros C; apply H2 in C; discriminate]]. }
  destruct (B "o"%char "bj"%string eq_refl eq_refl) as [(E1 & H1)|(E1 & H1)], (B "o"%char "ff"%string eq_refl eq_refl) as [(E2 & H2)|(E2 & H2)], (B "p"%char "ly"%string eq_refl eq_refl) as [(E3 & H3)|(E3 & H3)];
    try (specialize (L4 _ _ H1 H2 eq_refl); discriminate); try (specialize (L4 _ _ H1 H3 eq_refl); discriminate); try (specialize (L4 _ _ H2 H3 eq_refl); discriminate);
    cbn [load by_suffix read]; rewrite E1, E2, E3; cbn [rbind]; (split; [|split; [|split]]); try contradiction; try reflexivity; intros _;
    match goal with |- rbind (rbind ?r _) _ = ?r => destruct r; reflexivity end.
Qed.
(* An open stream is taken to be of the format registered last: PLY for meshes. *)
Theorem builtin_mesh_stream : forall size s0 s o
    (obj off ply : S -> path -> O -> result D) (wobj woff wply : S -> D -> path -> O -> S * result unit),
  load (fst (run size (new [by_suffix ".obj" obj wobj; by_suffix ".off" off woff; by_suffix ".ply" ply wply] true, s0) [])) s PStream o = ply s PStream o.
Proof. intros. cbn. destruct (ply s PStream o); reflexivity. Qed.

(* include_textures is documented as deciding whether textures are saved; save_mesh does not look at it. *)
Theorem save_include_textures_refuted : forall (size : D -> nat) (reg : list (interpreter S D O)) s data p o,
  save_data size reg s data p true o = save_data size reg s data p false o.
Proof. reflexivity. Qed.
End Formats.
(* A str and a Path with the same text can be treated differently. *)
Theorem str_and_path_agree_refuted : exists name, endswith (PStr name) [".obj"%string] <> endswith (PPath name) [".obj"%string].
Proof. exists ".obj"%string. vm_compute. discriminate. Qed.
Print Assumptions io_load_last_registered.
Print Assumptions io_load_determined.
Print Assumptions io_save_last_registered.
Print Assumptions io_save_refuses.
Print Assumptions io_register_refuses.
Print Assumptions builtin_mesh_formats.
Print Assumptions builtin_mesh_formats_path.
Print Assumptions builtin_mesh_stream.
Print Assumptions save_include_textures_refuted.
Print Assumptions str_and_path_agree_refuted.

(* ---- the hypotheses can be met ---- *)
Definition mine : interpreter nat nat unit := by_suffix ".xyz" (fun s _ _ => Ok (s + 1)%nat) (fun s d _ _ => (s + d, Ok tt)%nat).
Definition better : interpreter nat nat unit := by_suffix ".xyz" (fun s _ _ => Ok (s + 2)%nat) (fun s d _ _ => (s + 10 * d, Ok tt)%nat).
Example last_wins : load (fst (run (fun _ => 1%nat) (new [mine] true, 0%nat) [Register None; Register (Some better); Load (PStr "a.xyz") tt])) 5 (PStr "A.XYZ") tt = Ok 7%nat.
Proof. reflexivity. Qed.
Example default_used : load (fst (run (fun _ => 1%nat) (new [mine] true, 0%nat) [])) 5 (PPath "a.b.Xyz") tt = Ok 6%nat.
Proof. reflexivity. Qed.
Example nobody_accepts : load (fst (run (fun _ => 1%nat) (new [mine] true, 0%nat) [Register (Some better)])) 5 (PStr "a.txt") tt = Fail EValue.
Proof. reflexivity. Qed.
Example formats_polite : List.Forall polite [mine; better].
Proof.
  assert (H : forall suf parse write, @polite nat nat unit (by_suffix suf parse write)).
  { intros suf parse write s d p o s' E. cbn in E. destruct (endswith p [suf]); [|congruence]. destruct (write s d p o) as (s2, [u|e]); cbn in E; discriminate. }
  repeat constructor; apply H.
Qed.
Example saves_ten : save_data (fun _ => 1%nat) (fst (run (fun _ => 1%nat) (new [mine] true, 0%nat) [Register (Some better)])) 5 (Some 3%nat) (PStr "b.xyz") true tt = (35%nat, Ok tt).
Proof. reflexivity. Qed.
