(** Commit.v -- crypto/commitments: the part builder and hash commitments.

    A [*big.Int] that may be nil is an [option Z]; where a nil element cannot matter the element type
    is arbitrary.  The error texts are not modelled: [None] is a non-nil error. *)
From Verif Require Import Base BigInt HashFrame.

(** commitment_builder.go 16-17 *)
Definition parts_cap : Z := 3.
Definition max_part_size : Z := 1 * 1024 * 1024.

(** math/big Int.Int64: the low 64 bits of |x| as a two's complement int64, negated for negative x;
    this is the signed residue of x modulo 2^64 *)
Definition int64_of (x : Z) : Z := (x + 2 ^ 63) mod 2 ^ 64 - 2 ^ 63.

(** commitment_builder.go 40-60 Secrets: too many parts, then each part in order is checked and appended.
    [big.NewInt(partLen)] is a non-nil number. *)
Fixpoint secrets_loop (parts : list (list (option Z))) (acc : list (option Z)) : option (list (option Z)) :=
  match parts with
  | [] => Some acc
  | p :: rest =>
    if max_part_size <? Z.of_nat (length p) then None
    else secrets_loop rest ((acc ++ [Some (Z.of_nat (length p))]) ++ p)
  end.
Definition secrets (parts : list (list (option Z))) : option (list (option Z)) :=
  if parts_cap <? Z.of_nat (length parts) then None else secrets_loop parts [].

(** commitment_builder.go 62-97 ParseSecrets, the loop.  The code alternates between a length element
    and a data block with an index [el]; here [rest] is [secrets[el:]] at a length element, and one
    step does the length element and, if the slice is not used up, the data block.  A nil length
    element panics in Int64(); a negative length makes the slice expression panic.  [fuel] is at least
    the number of elements left, each step uses one element, so the [O] case is never the result of a
    non-empty rest ([parse_fuel]). *)
Fixpoint parse_loop (fuel : nat) (rest : list (option Z)) (parts : list (list (option Z)))
  : outcome (option (list (list (option Z)))) :=
  match rest, fuel with
  | [], _ => Ret (Some parts)
  | _ :: _, O => Panic
  | e :: rest', S fuel' =>
    let! v := deref e in
    let n := int64_of v in
    if max_part_size <? n then Ret None                                    (* 77-79 *)
    else match rest' with
    | [] => Ret (Some parts)                                               (* el = inLen: loop ends *)
    | _ =>
      if parts_cap <=? Z.of_nat (length parts) then Ret None               (* 82-84 *)
      else if Z.of_nat (length rest') <? n then Ret None                   (* 85-87 *)
      else if n <? 0 then Panic                                            (* 88 slice bounds *)
      else parse_loop fuel' (skipn (Z.to_nat n) rest') (parts ++ [firstn (Z.to_nat n) rest'])
    end
  end.
(** 63-65: nil or fewer than two elements is an error ([secrets == nil] has length 0) *)
Definition parse_secrets (s : list (option Z)) : outcome (option (list (list (option Z)))) :=
  if Z.of_nat (length s) <? 2 then Ret None else parse_loop (length s) s [].

(** ** Hash commitments.  [H] is SHA-512/256. *)
Record commitment := { cm_c : option Z; cm_d : option (list (option Z)) }.

Fixpoint derefs {A} (l : list (option A)) : outcome (list A) :=
  match l with [] => Ret [] | x :: l => let! a := deref x in let! r := derefs l in Ret (a :: r) end.

Section Hash.
  Variable H : bytes -> bytes.
  (** common/hash.go 58-96 SHA512_256i on pointers: a nil element panics *)
  Definition sha_ptrs (l : list (option Z)) : outcome (option Z) := let! zs := derefs l in Ret (sha_ints H zs).

  (** commitment.go 35-47 NewHashCommitmentWithRandomness *)
  Definition commit_with (r : option Z) (sec : list (option Z)) : outcome commitment :=
    let! c := sha_ptrs (r :: sec) in Ret {| cm_c := c; cm_d := Some (r :: sec) |}.

  (** commitment.go 58-65 Verify; [hash.Cmp] on the nil hash of an empty (non-nil) D panics *)
  Definition cm_verify (c : commitment) : outcome bool :=
    match cm_c c, cm_d c with
    | Some v, Some d => let! h := sha_ptrs d in let! h := deref h in Ret (h =? v)
    | _, _ => Ret false
    end.

  (** commitment.go 67-76 DeCommit: the two debugging prints dereference C and D[0] first *)
  Definition cm_decommit (c : commitment) : outcome (bool * list (option Z)) :=
    let! _ := deref (cm_c c) in
    let d := match cm_d c with Some d => d | None => [] end in
    let! d0 := idx d 0 in
    let! _ := deref d0 in
    let! ok := cm_verify c in
    Ret (if ok : bool then (true, skipn 1 d) else (false, [])).
End Hash.

(** ** The specification: the flat form of a list of parts *)
Definition flat (parts : list (list (option Z))) : list (option Z) :=
  flat_map (fun p => Some (Z.of_nat (length p)) :: p) parts.

(** ** Lemmas *)
Lemma int64_small x : - 2 ^ 63 <= x < 2 ^ 63 -> int64_of x = x.
Proof. intro R. unfold int64_of. rewrite Z.mod_small; lia. Qed.
Lemma int64_range x : - 2 ^ 63 <= int64_of x < 2 ^ 63.
Proof. unfold int64_of. pose proof (Z.mod_pos_bound (x + 2 ^ 63) (2 ^ 64) ltac:(lia)). lia. Qed.
Lemma int64_cong x : (int64_of x - x) mod 2 ^ 64 = 0.
Proof.
  unfold int64_of. rewrite (Z.mod_eq (x + 2 ^ 63)) by lia.
  replace (x + 2 ^ 63 - 2 ^ 64 * ((x + 2 ^ 63) / 2 ^ 64) - 2 ^ 63 - x) with (- ((x + 2 ^ 63) / 2 ^ 64) * 2 ^ 64) by ring.
  apply Z_mod_mult.
Qed.

Lemma secrets_loop_spec parts acc :
  secrets_loop parts acc =
    if forallb (fun p => Z.of_nat (length p) <=? max_part_size) parts then Some (acc ++ flat parts) else None.
Proof.
  revert acc. induction parts as [|p parts IH]; intro acc; cbn [secrets_loop forallb flat flat_map]; [rewrite app_nil_r; reflexivity|].
  destruct (Z.ltb_spec max_part_size (Z.of_nat (length p))); destruct (Z.leb_spec (Z.of_nat (length p)) max_part_size); try lia; [reflexivity|].
  rewrite IH. cbn [andb]. destruct (forallb _ _); [|reflexivity]. unfold flat. rewrite <- !app_assoc. reflexivity.
Qed.

Lemma parse_mono f f' rest parts : (length rest <= f)%nat -> (length rest <= f')%nat -> parse_loop f rest parts = parse_loop f' rest parts.
Proof.
  revert f' rest parts. induction f as [|f IH]; intros f' rest parts L L'.
  - destruct rest; [|cbn in L; lia]. destruct f'; reflexivity.
  - destruct rest as [|e rest]; [destruct f'; reflexivity|]. destruct f' as [|f']; [cbn in L'; lia|].
    cbn [parse_loop]. destruct e; cbn [deref obind]; [|reflexivity]. destruct (_ <? _); [reflexivity|]. destruct rest as [|e2 rest]; [reflexivity|].
    destruct (_ <=? _); [reflexivity|]. destruct (_ <? _); [reflexivity|]. destruct (_ <? 0); [reflexivity|].
    apply IH; rewrite skipn_length; cbn [length] in *; lia.
Qed.
