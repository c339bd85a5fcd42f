(** Cipher.v -- package/github.com/btcsuite/btcd/btcec/v1/ciphering.go: ECDH, Encrypt, Decrypt, padding.
    SHA-512, HMAC-SHA256 and the AES block functions are arbitrary functions here; CBC chaining (crypto/cipher) is written out.
    Simplified: addPKCSPadding appends to its argument and may write into the spare capacity of the caller's slice; values only here. *)
From Verif Require Import Base BigInt SecpField SecpPrimes SecpCurve Keygen Ecdsa.

(** 201-205 addPKCSPadding *)
Definition add_pad (src : bytes) : bytes := let n := (16 - length src mod 16)%nat in src ++ repeat (zb (Z.of_nat n)) n.
(** 208-216 removePKCSPadding: src[length-1] panics on an empty slice *)
Definition remove_pad (src : bytes) : outcome (option bytes) :=
  let len := Z.of_nat (length src) in
  let! b := idx src (len - 1) in
  let pl := bz b in
  if (16 <? pl) || (len <? 16) then Ret None else let! r := slice src 0 (len - pl) in Ret (Some r).
(** 36, 38 ciphCurveBytes, ciphCoordLength *)
Definition curve_bytes : bytes := [zb 2; zb 202].
Definition coord_len : bytes := [zb 0; zb 32].
(** bytes.Equal, hmac.Equal *)
Definition beq (a b : bytes) : bool := if list_eq_dec Byte.byte_eq_dec a b then true else false.
Section Cipher.
  Variable H512 : bytes -> bytes.
  Variable HM : bytes -> bytes -> bytes.
  Variables aes_e aes_d : bytes -> bytes -> bytes.
  Variable T : table.
  (** 46-49 GenerateSharedSecret *)
  Definition shared (d : Z) (Q : Z * Z) : bytes := to_be (fst (s_mul Q (to_be d))).
  (** crypto/cipher CBC: n blocks *)
  Fixpoint cbc_enc (n : nat) (k iv p : bytes) : bytes :=
    match n with O => [] | S n => let c := aes_e k (xor (firstn 16 p) iv) in c ++ cbc_enc n k c (skipn 16 p) end.
  Fixpoint cbc_dec (n : nat) (k iv c : bytes) : bytes :=
    match n with O => [] | S n => xor (aes_d k (firstn 16 c)) iv ++ cbc_dec n k (firstn 16 c) (skipn 16 c) end.
  (** CryptBlocks panics if the input is not full blocks *)
  Definition crypt_enc (k iv p : bytes) : outcome bytes := if (length p mod 16 =? 0)%nat then Ret (cbc_enc (length p / 16) k iv p) else Panic.
  Definition crypt_dec (k iv c : bytes) : outcome bytes := if (length c mod 16 =? 0)%nat then Ret (cbc_dec (length c / 16) k iv c) else Panic.
  (** 70-118 Encrypt, for the random number e of the ephemeral key and the random iv (16 bytes) *)
  Definition encrypt (Q : Z * Z) (e : Z) (iv m : bytes) : outcome bytes :=
    let key := H512 (shared e Q) in
    let! q := deref (s_base_mul T (to_be e)) in
    let pb := ser_unc q in
    let! x := slice pb 1 33 in
    let! y := slice pb 33 65 in
    let! ct := crypt_enc (firstn 32 key) iv (add_pad m) in
    let body := iv ++ curve_bytes ++ coord_len ++ x ++ coord_len ++ y ++ ct in
    Ret (body ++ HM (skipn 32 key) body).
  (** 121-196 Decrypt *)
  Definition decrypt (d : Z) (i : bytes) : outcome (option bytes) :=
    let len := Z.of_nat (length i) in
    if len <? 16 + 70 + 16 + 32 then Ret None else
    let! iv := slice i 0 16 in
    let! c := slice i 16 18 in
    if negb (beq c curve_bytes) then Ret None else
    let! lx := slice i 18 20 in
    if negb (beq lx coord_len) then Ret None else
    let! x := slice i 20 52 in
    let! ly := slice i 52 54 in
    if negb (beq ly coord_len) then Ret None else
    let! y := slice i 54 86 in
    match parse_pub (zb 4 :: x ++ y) with
    | None => Ret None
    | Some q =>
      if negb ((len - 16 - 86 - 32) mod 16 =? 0) then Ret None else
      let! mac := slice i (len - 32) len in
      let key := H512 (shared d q) in
      let! body := slice i 0 (len - 32) in
      if negb (beq mac (HM (skipn 32 key) body)) then Ret None else
      let! ct := slice i 86 (len - 32) in
      let! p := crypt_dec (firstn 32 key) iv ct in
      remove_pad p
    end.
End Cipher.
