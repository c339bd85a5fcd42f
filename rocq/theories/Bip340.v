(** Bip340.v -- package/github.com/btcsuite/btcd/btcec/v2: curve.go, schnorr/pubkey.go and schnorr/signature.go (BIP-340 signatures).

    v2 takes its curve from decred secp256k1/v4, which is not in /repo: a JacobianPoint is here an element of the group [E] of
    Secp256k1.v (the neutral element is the point with X = Y = 0), AddNonConst, ScalarMultNonConst and ScalarBaseMultNonConst are
    the group operations, a ModNScalar is a number modulo N.  Affine coordinates ([aff]), parity and encodings are computed.
    chainhash.TaggedHash (not in /repo) and RFC 6979 are arbitrary functions. *)
From Verif Require Import Base BigInt NumTh FieldP AbGroup AbZ WGroup WCurve SecpField SecpFieldThm SecpPrimes Secp256k1 PropSecp Curve Keygen Ckd Bip32.
Local Notation N := n256k1. Local Notation P := p256k1.

Definition odd_y (A : E) : bool := Z.odd (snd (aff A)).
(** schnorr/pubkey.go 46-49 SerializePubKey *)
Definition xb (A : E) : bytes := be_fixed 32 (fst (aff A)).
(** SerializeCompressed of an affine point (0, 0 for the neutral element) *)
Definition cmp (A : E) : bytes := zb (if odd_y A then 3 else 2) :: xb A.
(** secp256k1/v4 DecompressY with the square root as in btcec/v1: the point with this x and parity *)
Definition pt_of (x y : Z) (H : (y * y - (x * x * x + 7)) mod P = 0) : E := exist _ (Some (z x, z y)) (on_z x y H).
Definition lift_y (x : Z) (y : Z) : option E :=
  match Z.eq_dec ((y * y - (x * x * x + 7)) mod P) 0 with left H => Some (pt_of x y H) | right _ => None end.
Definition lift (x : Z) (odd : bool) : option E := match decompress P 7 x odd with Some y => lift_y x y | None => None end.
(** secp256k1/v4 ParsePubKey for 33 bytes: format 2 or 3, x below P *)
Definition parse33 (b : bytes) : option E :=
  match b with
  | f :: r => if (length r =? 32)%nat && ((bz f =? 2) || (bz f =? 3)) && (of_be r <? P) then lift (of_be r) (bz f =? 3) else None
  | [] => None
  end.
(** schnorr/pubkey.go 23-41 ParsePubKey *)
Definition parse_xonly (b : bytes) : option E := if (length b =? 32)%nat then parse33 (zb 2 :: b) else None.
(** curve.go 73-93 ParseJacobian: a leading zero byte means the neutral element, whatever follows *)
Definition parse_jac (b : bytes) : option E :=
  if (length b =? 33)%nat then match b with f :: _ => if bz f =? 0 then Some ezero else parse33 b | [] => None end else None.
(** curve.go 98-108 JacobianToByteSlice *)
Definition ser_jac (A : E) : bytes := if (fst (aff A) =? 0) && (snd (aff A) =? 0) then repeat (zb 0) 33 else cmp A.

(** ** schnorr/signature.go *)
(** 57-63 Serialize *)
Definition bser (sg : Z * Z) : bytes := be_fixed 32 (fst sg) ++ be_fixed 32 (snd sg).
(** 70-101 ParseSignature *)
Definition bparse (b : bytes) : option (Z * Z) :=
  if (length b <? 64)%nat then None else if (64 <? length b)%nat then None else
  let r := of_be (firstn 32 b) in let s := of_be (skipn 32 b) in
  if P <=? r then None else if N <=? s then None else Some (r, s).

Definition tag_chal : bytes := str "BIP0340/challenge".
Definition tag_aux : bytes := str "BIP0340/aux".
Definition tag_nonce : bytes := str "BIP0340/nonce".
Section Bip340.
  Variable TH : bytes -> bytes -> bytes.   (* TaggedHash: tag, concatenated message *)
  Definition chal (r : Z) (pk m : bytes) : Z := of_be (TH tag_chal (be_fixed 32 r ++ pk ++ m)).
  (** 117-231 schnorrVerify *)
  Definition sverify (sg : Z * Z) (m pk : bytes) : bool :=
    let '(r, s) := sg in
    if negb (length m =? 32)%nat then false else
    match parse_xonly pk with
    | None => false
    | Some A =>
      let e := chal r (xb A) m in
      if N <=? e then false else
      let R := eadd (zm s G) (zm ((- e) mod N) A) in
      if (fst (aff R) =? 0) && (snd (aff R) =? 0) then false else
      if odd_y R then false else r =? fst (aff R)
    end.
  (** 235-238 Verify *)
  Definition bverify (sg : Z * Z) (m : bytes) (A : E) : bool := sverify sg m (xb A).
  (** 255-349 schnorrSign *)
  Definition sign_with (d k : Z) (A : E) (m : bytes) (fast : bool) : option (Z * Z) :=
    let R := zm k G in
    let k := if odd_y R then (- k) mod N else k in
    let r := fst (aff R) in
    let e := chal r (xb A) m in
    if N <=? e then None else
    let s := (e * d + k) mod N in
    if fast then Some (r, s) else if sverify (r, s) m (xb A) then Some (r, s) else None.
  Variable rfc : bytes -> bytes -> nat -> Z.   (* NonceRFC6979 with the extra data fixed: key bytes, hash, iteration *)
  (** 525-547: the loop over iterations; [None] = no result within the fuel *)
  Fixpoint sign_loop (fuel : nat) (i : nat) (d : Z) (A : E) (m : bytes) (fast : bool) : option (Z * Z) :=
    match fuel with
    | O => None
    | S fuel => match sign_with d (rfc (be_fixed 32 d) m i) A m fast with Some sg => Some sg | None => sign_loop fuel (S i) d A m fast end
    end.
  (** 402-548 Sign.  privKeyScalar is a pointer into the caller's key, and step 5 negates it in place (471-475): the second
      component is the caller's key afterwards.  Outer [None] = still running, inner [None] = error *)
  Definition bsign (fuel : nat) (d : Z) (m : bytes) (aux : option bytes) (fast : bool) : option (option (Z * Z)) * Z :=
    if negb (length m =? 32)%nat then (Some None, d) else
    if d =? 0 then (Some None, d) else
    let A := zm d G in
    let d := if odd_y A then (- d) mod N else d in
    match aux with
    | Some a =>
      let t := xor (TH tag_aux a) (be_fixed 32 d) in
      let k := of_be (TH tag_nonce (t ++ xb A ++ m)) mod N in
      (Some (if k =? 0 then None else sign_with d k A m fast), d)
    | None => (option_map Some (sign_loop fuel 0 d A m fast), d)
    end.
End Bip340.
