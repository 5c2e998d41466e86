(* C01, C02, C03: list / padded / packed conversions. *)
From Coq Require Import Reals.
Local Open Scope nat_scope.
From Verif Require Import Base Packing PackingSpec PackingProofs PackOpsProofs.

(* ---------------- C01 ---------------- *)

Theorem list_to_padded_spec : forall (A : Type) (n : nat) (xs : list (tensor A)) (v : A),
  batch_of n xs ->
  exists p dims, list_to_padded xs None v false = Ok p /\ shape p = length xs :: dims /\
    length dims = n /\ largest_dims xs dims /\
    forall i y idx, nth_error xs i = Some y -> Forall2 lt idx dims ->
      get (data p) (i :: idx) = Some (match get (data y) idx with Some a => a | None => v end).
Proof. exact @list_to_padded_full. Qed.
Print Assumptions list_to_padded_spec.

Theorem padded_list_roundtrip : forall (A : Type) (n : nat) (xs : list (tensor A)) (v : A),
  batch_of n xs ->
  exists p r, list_to_padded xs None v false = Ok p /\
    padded_to_list p (Some (map (fun y => SSeq (shape y)) xs)) = Ok r /\
    Forall2 (fun y z => data z = data y /\ (len0 y > 0 -> z = y)) xs r.
Proof. intros A n xs v (Hn & Hw & Hd & Hne). exact (padded_roundtrip n Hn xs Hw Hd Hne v). Qed.
Print Assumptions padded_list_roundtrip.

(* ints as split sizes, as used by Meshes and Pointclouds: all trailing dimensions equal *)
Theorem padded_list_roundtrip_int : forall (A : Type) (xs : list (tensor A)) (rest : list nat) (v : A),
  Forall wf xs -> Forall (fun y => exists k, shape y = k :: rest) xs ->
  (exists y, In y xs /\ len0 y > 0) ->
  exists p, list_to_padded xs None v false = Ok p /\
    shape p = length xs :: max_nat (map len0 xs) :: rest /\
    padded_to_list p (Some (map (fun y => SInt (len0 y)) xs)) = Ok xs.
Proof. exact @padded_roundtrip_int. Qed.
Print Assumptions padded_list_roundtrip_int.

(* a batch whose elements are all empty is rejected unless the caller gives pad_size *)
Theorem list_to_padded_all_empty_refuted :
  exists (xs : list (tensor nat)), xs <> [] /\ Forall wf xs /\
    Forall (fun y => exists k, shape y = [k; 3]) xs /\
    list_to_padded xs None 0 false = Fail EValue.
Proof.
  exists [mk [0; 3] (Dm [])]. repeat split; try discriminate; repeat constructor. exists 0; reflexivity.
Qed.
Print Assumptions list_to_padded_all_empty_refuted.

Example batch_of_example :
  batch_of 2 [mk [2; 3] (Dm [Dm [Sc 1; Sc 2; Sc 3]; Dm [Sc 4; Sc 5; Sc 6]]); mk [0] (Dm []);
              mk [1; 4] (Dm [Dm [Sc 7; Sc 8; Sc 9; Sc 10]])].
Proof.
  split; [lia|]. split; [repeat constructor|].
  split; [repeat apply Forall_cons; try apply Forall_nil; cbn; auto|].
  eexists; split; [left; reflexivity|cbn; lia].
Qed.

(* ---------------- C02 ---------------- *)

Theorem list_to_packed_exact : forall (A : Type) (x : list (list A)), x <> [] ->
  exists packed num first idx,
    list_to_packed x = Ok (packed, num, first, idx) /\
    packed = concat x /\ num = map (@length A) x /\
    length first = length x /\ length idx = length packed /\
    (forall j, j < length x -> nth_error first j = Some (sum_nat (firstn j num))) /\
    (forall i, i < length packed ->
       exists j f e, nth_error idx i = Some (Z.of_nat j) /\ nth_error first j = Some f /\
         nth_error x j = Some e /\ f <= i < f + length e /\
         nth_error packed i = nth_error e (i - f)).
Proof. exact @list_to_packed_spec. Qed.
Print Assumptions list_to_packed_exact.

Theorem packed_to_list_roundtrip : forall (A : Type) (x : list (list A)),
  packed_to_list (concat x) (map (@length A) x) = Ok x.
Proof. exact @packed_to_list_inverse. Qed.
Print Assumptions packed_to_list_roundtrip.

Theorem packed_to_list_exact : forall (A : Type) (x : list A) ss r,
  packed_to_list x ss = Ok r -> concat r = x /\ map (@length A) r = ss.
Proof. exact @packed_to_list_sound. Qed.
Print Assumptions packed_to_list_exact.

(* padding a batch and then packing it with the true sizes is the same as packing the list *)
Theorem padded_to_packed_agrees : forall (A : Type) (zero : A) (M : nat) (xs : list (list A)),
  Forall (fun e => length e <= M) xs ->
  padded_to_packed M (map (fun e => e ++ repeat zero (M - length e)) xs)
    (Some (map (@length A) xs)) None = Ok (concat xs).
Proof. exact @padded_to_packed_list. Qed.
Print Assumptions padded_to_packed_agrees.

(* with pad_value: correct as long as no real row consists of the pad value only *)
Theorem padded_to_packed_pad_value_agrees :
  forall (A : Type) (zero : A) (M : nat) (xs : list (list A)) (is_pad : A -> bool),
  is_pad zero = true -> (forall e r, In e xs -> In r e -> is_pad r = false) ->
  padded_to_packed M (map (fun e => e ++ repeat zero (M - length e)) xs) None (Some is_pad)
  = Ok (concat xs).
Proof. exact @padded_to_packed_padvalue. Qed.
Print Assumptions padded_to_packed_pad_value_agrees.

(* without that guard it is false: a point at the origin disappears with pad_value 0 *)
Theorem padded_to_packed_pad_value_refuted :
  exists (xs : list (list (list Z))),
    padded_to_packed 2 (map (fun e => e ++ repeat [0%Z; 0%Z; 0%Z] (2 - length e)) xs) None
      (Some (forallb (fun a => (a =? 0)%Z))) <> Ok (concat xs).
Proof. exists [ [ [1%Z; 0%Z; 0%Z]; [0%Z; 0%Z; 0%Z] ] ]. vm_compute. discriminate. Qed.
Print Assumptions padded_to_packed_pad_value_refuted.

Example packed_example :
  list_to_packed [ [10; 11]; []; [12; 13; 14] ]
  = Ok ([10; 11; 12; 13; 14], [2; 0; 3], [0; 2; 2], [0; 0; 2; 2; 2]%Z).
Proof. reflexivity. Qed.

(* ---------------- C03 ---------------- *)

Theorem packed_to_padded_op_spec : forall (A : Type) (zero : A) (M : nat) (xs : list (list A)),
  Forall (fun e => length e <= M) xs ->
  packed_to_padded_cpu zero (concat xs) (starts xs) M
  = Ok (map (fun e => e ++ repeat zero (M - length e)) xs).
Proof. exact @packed_to_padded_op. Qed.
Print Assumptions packed_to_padded_op_spec.

Theorem packed_padded_op_roundtrip : forall (A : Type) (zero : A) (M : nat) (xs : list (list A)),
  Forall (fun e => length e <= M) xs ->
  exists P, packed_to_padded_cpu zero (concat xs) (starts xs) M = Ok P /\
    padded_to_packed_cpu zero P (starts xs) (length (concat xs)) = Ok (concat xs).
Proof. exact @ops_roundtrip_starts. Qed.
Print Assumptions packed_padded_op_roundtrip.

(* packed_to_padded's backward is padded_to_packed and it is its adjoint, hence its gradient;
   by symmetry of the inner products the same identity serves the other direction *)
Theorem packed_padded_op_adjoint : forall (D M : nat) (xs g : list (list (list R))),
  Forall (fun e => length e <= M) xs -> length g = length xs ->
  Forall (fun row => length row = M) g ->
  exists P gx,
    packed_to_padded_cpu (repeat 0%R D) (concat xs) (starts xs) M = Ok P /\
    padded_to_packed_cpu (repeat 0%R D) g (starts xs) (length (concat xs)) = Ok gx /\
    inner3 P g = inner2 (concat xs) gx.
Proof. exact ops_adjoint_starts. Qed.
Print Assumptions packed_padded_op_adjoint.

(* a max_size below the longest element makes the C++ loop write outside of the output *)
Theorem packed_to_padded_op_small_max_refuted :
  exists (xs : list (list nat)) M,
    packed_to_padded_cpu 0 (concat xs) (starts xs) M = Fail EOutOfBounds.
Proof. exists [ [1; 2; 3] ], 2. reflexivity. Qed.
Print Assumptions packed_to_padded_op_small_max_refuted.

Example op_example :
  packed_to_padded_cpu 0 [10; 11; 12; 13; 14] (starts [ [10; 11]; []; [12; 13; 14] ]) 3
  = Ok [ [10; 11; 0]; [0; 0; 0]; [12; 13; 14] ].
Proof. reflexivity. Qed.
