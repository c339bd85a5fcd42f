(** Bip32.v -- crypto/ckd/child_key_derivation.go: extended secp256k1 keys, their text form and their derivation, with
    base58 (github.com/btcsuite/btcutil/base58 v1.0.3) and compressed key parsing (package/.../btcec/v1/pubkey.go). *)
From Verif Require Import Base BigInt Text NumTh Curve Ckd.
From Coq Require Import Znumtheory.

(** ** base58 (library): alphabet, digits, leading zeros *)
Definition b58_alphabet : bytes := str "123456789ABCDEFGHJKLMNPQRSTUVWXYZabcdefghijkmnopqrstuvwxyz".
Definition b58_char (d : Z) : byte := nth (Z.to_nat d) b58_alphabet (zb 0).
Fixpoint index_of (c : byte) (l : bytes) : option nat :=
  match l with [] => None | x :: r => if byte_eqb c x then Some O else match index_of c r with Some k => Some (S k) | None => None end end.
Definition b58_digit (c : byte) : option Z := match index_of c b58_alphabet with Some k => Some (Z.of_nat k) | None => None end.
(** repeated division by 58 (the library takes ten digits at a time: same digits) *)
Fixpoint b58_digits (fuel : nat) (z : Z) (acc : list Z) : list Z :=
  match fuel with
  | O => acc
  | S f => if z =? 0 then acc else b58_digits f (z / 58) (z mod 58 :: acc)
  end.
Fixpoint lead0 (b : bytes) : nat := match b with c :: r => if bz c =? 0 then S (lead0 r) else O | [] => O end.
Definition b58_encode (b : bytes) : bytes :=
  let z := of_be b in
  repeat (b58_char 0) (lead0 b) ++ map b58_char (b58_digits (S (Z.to_nat (Z.log2 z))) z []).
Fixpoint b58_value (s : bytes) (acc : Z) : option Z :=
  match s with [] => Some acc | c :: r => match b58_digit c with Some d => b58_value r (acc * 58 + d) | None => None end end.
Fixpoint lead1 (s : bytes) : nat := match s with c :: r => if byte_eqb c (b58_char 0) then S (lead1 r) else O | [] => O end.
(** a character outside the alphabet gives the empty result (a rune above 255 would panic in the library; the text is a byte string here) *)
Definition b58_decode (s : bytes) : bytes :=
  match b58_value s 0 with
  | None => []
  | Some z => repeat (zb 0) (lead1 s) ++ to_be z
  end.

(** ** compressed secp256k1 keys; [P], [B] are the field prime and the constant of y^2 = x^3 + B *)
Section Parse.
  Variables P B : Z.
  (** btcec/v1/pubkey.go 26-57 decompressPoint. The field values are taken modulo P (field.go); SqrtVal raises to (P+1)/4 *)
  Definition decompress (X : Z) (ybit : bool) : option Z :=
    let x := X mod P in
    let x3 := (x * x * x + B) mod P in
    let y := powm x3 ((P + 1) / 4) P in
    let y := if Bool.eqb ybit (Z.odd y) then y else (- y) mod P in
    if negb (y * y mod P =? x3) then None else
    if negb (Bool.eqb ybit (Z.odd y)) then None else Some y.
  (** pubkey.go 78-140 ParsePubKey on 33 bytes -- the only length NewExtendedKeyFromString passes *)
  Definition parse33 (k : bytes) : option point :=
    match k with
    | [] => None
    | f :: xs =>
      if negb (length k =? 33)%nat then None else
      if negb ((bz f =? 2) || (bz f =? 3)) then None else
      match decompress (of_be xs) (Z.odd (bz f)) with Some y => Some (of_be xs, y) | None => None end
    end.
End Parse.

(** ** extended keys *)
(** child_key_derivation.go 29-38 ExtendedKey; [None] for a public key with nil coordinates *)
Record ekey := { ek_pub : option point; ek_ded : option point; ek_depth : Z; ek_index : Z; ek_priv : bytes; ek_cc : bytes; ek_fp : bytes; ek_ver : bytes }.

Section Text.
  Variables P B : Z.
  (** SHA-256 *)
  Variable S2 : bytes -> bytes.
  (** 136-140 doubleHashB, first four bytes *)
  Definition checksum (b : bytes) : bytes := firstn 4 (S2 (S2 b)).
  (** 73-80: the serialized fields before the checksum *)
  Definition ek_payload (k : ekey) (p : point) : bytes :=
    ek_ver k ++ [zb (ek_depth k)] ++ ek_fp k ++ u32be (ek_index k) ++ ek_cc k ++ ser_comp p.
  (** 67-85 String *)
  Definition ek_string (k : ekey) : outcome bytes :=
    let! p := deref (ek_pub k) in
    let pl := ek_payload k p in
    Ret (b58_encode (pl ++ checksum pl)).
  (** 88-134 NewExtendedKeyFromString. [koblitz]: the curve argument is btcec's; any other curve goes through elliptic.Unmarshal,
      which returns nil coordinates for 33 bytes (it takes only the 65-byte form) *)
  Definition ek_parse (koblitz : bool) (s : bytes) : option ekey :=
    let d := b58_decode s in
    if negb (length d =? 82)%nat then None else
    let pl := firstn 78 d in
    if negb (bytes_eqb (skipn 78 d) (checksum pl)) then None else
    let mk pub := {| ek_pub := pub; ek_ded := None; ek_depth := bz (nth 4 pl (zb 0)); ek_index := of_be (firstn 4 (skipn 9 pl)); ek_priv := [];
                     ek_cc := firstn 32 (skipn 13 pl); ek_fp := firstn 4 (skipn 5 pl); ek_ver := firstn 4 pl |} in
    if koblitz then match parse33 P B (skipn 45 pl) with Some p => Some (mk (Some p)) | None => None end
    else Some (mk None).
End Text.

(** ** derivation *)
Section Derive.
  (** [C] is the curve argument, [N256] the order of secp256k1 *)
  Variable C : curve.
  Variable N256 : Z.
  Variable HM : bytes -> bytes -> bytes.
  (** RIPEMD160 of SHA256 *)
  Variable H160 : bytes -> bytes.
  (** crypto.NewECPoint on possibly nil coordinates: ecpoint.go 35-40, 117-122 *)
  Definition new_point_opt (p : option point) : option point := match p with Some p => new_point C (px p) (py p) | None => None end.

  (** 384-399 NewExtendKey *)
  Definition ek_new (priv : bytes) (pub ded : point) (index depth : Z) (cc : bytes) : ekey :=
    {| ek_pub := Some pub; ek_ded := Some ded; ek_depth := depth; ek_index := index; ek_priv := priv; ek_cc := cc; ek_fp := firstn 4 (H160 (ser_comp ded)); ek_ver := [zb 0] |}.

  (** 204-289 DeriveChildKey ([private] = true) and 292-376 DeriveChildPubKey ([private] = false, no hardening): same steps, the private key is only in the first.
      ScalarBaseMult's nil result panics on X() *)
  Definition ek_child (private : bool) (index : Z) (harden : bool) (k : ekey) : outcome (option (Z * ekey)) :=
    if 2 ^ 31 <=? index then Ret None else
    if ek_depth k =? 255 then Ret None else
    match new_point_opt (ek_pub k), new_point_opt (ek_ded k) with
    | Some pub, Some ded =>
      let pkb := ser_comp ded in
      let idx := if harden then index + 2 ^ 31 else index in
      let data := (if harden then zb 0 :: ek_priv k else pkb) ++ u32be idx in
      let ilr := HM (ek_cc k) data in
      let il := of_be (firstn 32 ilr) in
      if (c_n C <=? il) || (il =? 0) then Ret None else
      let! dg := deref (base_mul C il) in
      if (px dg =? 0) || (py dg =? 0) then Ret None else
      match pt_add C pub dg with
      | None => Ret None
      | Some pub' =>
        match pt_add C ded dg with
        | None => Ret None
        | Some ded' =>
          Ret (Some (il, {| ek_pub := Some pub'; ek_ded := Some ded'; ek_depth := ek_depth k + 1; ek_index := idx;
                            ek_priv := (if private then to_be ((il + of_be (ek_priv k)) mod N256) else []);
                            ek_cc := skipn 32 ilr; ek_fp := firstn 4 (H160 pkb); ek_ver := ek_ver k |}))
        end
      end
    | _, _ => Ret None
    end.
  (** 180-200 DeriveChildKeyFromHierarchy; ModInt.Add with the argument modulus (a zero modulus panics) *)
  Fixpoint ek_hier (indices : list Z) (md : Z) (s : Z) (k : ekey) : outcome (option (Z * ekey)) :=
    match indices with
    | [] => Ret (Some (s, k))
    | i :: r =>
      let! o := ek_child true i false k in
      match o with
      | None => Ret None
      | Some (il, k') => if md =? 0 then Panic else ek_hier r md ((il + s) mod md) k'
      end
    end.
  Definition ek_hierarchy (indices : list Z) (md : Z) (k : ekey) := ek_hier indices md 0 k.

  (** 403-427 and 447-466: one path component; [None] is an error *)
  Definition ek_component (private : bool) (part : bytes) (k : ekey) : outcome (option ekey) :=
    let! h := hardened part in
    if negb private && (h : bool) then Ret None else
    let body := if h : bool then removelast part else part in
    match atoi body with
    | None => Ret None
    | Some idx => if idx <? 0 then Ret None else
      let! o := ek_child private (idx mod 2 ^ 32) h k in
      Ret (match o with Some (_, k') => Some k' | None => None end)
    end.
  Fixpoint ek_path (private : bool) (parts : list bytes) (k : ekey) : outcome (option ekey) :=
    match parts with
    | [] => Ret (Some k)
    | part :: r => let! o := ek_component private part k in match o with None => Ret None | Some k' => ek_path private r k' end
    end.
  (** 404-408: parts[pk.Depth:] panics when the path is shorter than the depth *)
  Definition path_parts (k : ekey) (path : bytes) : outcome (list bytes) :=
    let parts := split slash path in
    if (length parts <? Z.to_nat (ek_depth k))%nat then Panic else Ret (skipn (Z.to_nat (ek_depth k)) parts).
  (** 401-440 DerivePrivateKeyForPath: the 32-byte key and the compressed public key *)
  Definition ek_derive_priv (k : ekey) (path : bytes) : outcome (option (bytes * bytes)) :=
    let! parts := path_parts k path in
    let! o := ek_path true parts k in
    match o with
    | None => Ret None
    | Some k' =>
      if (32 <? length (ek_priv k'))%nat then Ret None else
      let! p := deref (ek_pub k') in
      Ret (Some (repeat (zb 0) (32 - length (ek_priv k')) ++ ek_priv k', ser_comp p))
    end.
  (** 444-472 DerivePublicKeyForPath *)
  Definition ek_derive_pub (k : ekey) (path : bytes) : outcome (option point) :=
    let! parts := path_parts k path in
    let! o := ek_path false parts k in
    match o with
    | None => Ret None
    | Some k' => Ret (new_point_opt (ek_pub k'))
    end.
End Derive.
