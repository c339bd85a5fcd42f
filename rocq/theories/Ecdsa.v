(** Ecdsa.v -- package/github.com/btcsuite/btcd/btcec/v1: pubkey.go, privkey.go, signature.go on the curve of SecpCurve.v.
    Go's crypto/ecdsa.Verify (called by signature.go 75-77) is modelled by its generic implementation (verifyLegacy). *)
From Verif Require Import Base BigInt NumTh SecpField SecpFieldThm SecpPrimes SecpCurve Curve Ckd.

Local Notation N := n256k1.
(** ** pubkey.go *)
(** 189-196 paddedAppend; privkey.go 70-73 Serialize *)
Definition pad32 (v : Z) : bytes := let b := to_be v in repeat (zb 0) (32 - length b) ++ b.
(** 27-58 decompressPoint, on field values *)
Definition decompress_fe (X : Z) (ybit : bool) : option Z :=
  let x := fe_set_slice (to_be X) in
  let x3 := fe_norm (fe_add (fe_mul (fe_sq x) x) (fe_int 7)) in
  let y := fe_norm (fe_sqrt x3) in
  let y := if Bool.eqb ybit (fe_is_odd y) then y else fe_norm (fe_neg y 1) in
  let y2 := fe_norm (fe_sq y) in
  if negb (fe_eqb y2 x3) then None else
  if negb (Bool.eqb ybit (fe_is_odd y)) then None else
  Some (of_be (fe_bytes y)).
(** 69-74 IsCompressedPubKey *)
Definition is_compressed (b : bytes) : bool := match b with [] => false | f :: _ => (length b =? 33)%nat && (Z.land (bz f) 254 =? 2) end.
(** 79-134 ParsePubKey; an error is [None] *)
Definition parse_pub (b : bytes) : option (Z * Z) :=
  match b with
  | [] => None
  | f :: r =>
    let ybit := Z.land (bz f) 1 =? 1 in
    let format := Z.land (bz f) 254 in
    if (length b =? 65)%nat then
      if negb (format =? 4) && negb (format =? 6) then None else
      let x := of_be (firstn 32 r) in let y := of_be (skipn 32 r) in
      if (format =? 6) && negb (Bool.eqb ybit (Z.odd y)) then None else
      if p256k1 <=? x then None else
      if p256k1 <=? y then None else
      if negb (is_on_curve x y) then None else Some (x, y)
    else if (length b =? 33)%nat then
      if negb (format =? 2) then None else
      let x := of_be r in
      match decompress_fe x ybit with Some y => Some (x, y) | None => None end
    else None
  end.
(** 148-153 SerializeUncompressed, 156-164 SerializeCompressed, 167-176 SerializeHybrid *)
Definition ser_unc (p : Z * Z) : bytes := zb 4 :: pad32 (fst p) ++ pad32 (snd p).
Definition ser_cmp (p : Z * Z) : bytes := zb (if Z.odd (snd p) then 3 else 2) :: pad32 (fst p).
Definition ser_hyb (p : Z * Z) : bytes := zb (if Z.odd (snd p) then 7 else 6) :: pad32 (fst p) ++ pad32 (snd p).

(** ** signature.go: encodings *)
Definition half_order : Z := N / 2.
(** 228-239 canonicalizeInt *)
Definition canonicalize_int (v : Z) : bytes :=
  let b := match to_be v with [] => [zb 0] | b => b end in
  match b with c :: _ => if negb (Z.land (bz c) 128 =? 0) then zb 0 :: b else b | [] => b end.
(** 48-71 Serialize *)
Definition low_s (s : Z) : Z := if half_order <? s then N - s else s.
Definition sig_ser (rs : Z * Z) : bytes :=
  let rb := canonicalize_int (fst rs) in
  let sb := canonicalize_int (low_s (snd rs)) in
  [zb 48; zb (Z.of_nat (6 + length rb + length sb) - 2); zb 2; zb (Z.of_nat (length rb))] ++ rb ++ [zb 2; zb (Z.of_nat (length sb))] ++ sb.
(** 245-254 canonicalPadding ([true] = no error); b[0] panics on an empty slice *)
Definition canonical_padding (b : bytes) : outcome bool :=
  let! b0 := idx b 0 in
  if Z.land (bz b0) 128 =? 128 then Ret false else
  if (1 <? Z.of_nat (length b)) && (bz b0 =? 0) then let! b1 := idx b 1 in Ret (Z.land (bz b1) 128 =? 128)
  else Ret true.
(** 93-205 parseSig *)
Definition parse_sig (s : bytes) (der : bool) : outcome (option (Z * Z)) :=
  if Z.of_nat (length s) <? 8 then Ret None else
  let! h := idx s 0 in
  if negb (bz h =? 48) then Ret None else
  let! sl := idx s 1 in
  let total := (bz sl + 2) mod 256 in
  if (Z.of_nat (length s) <? total) || (total <? 8) then Ret None else
  let! s := slice s 0 total in
  let! m := idx s 2 in
  if negb (bz m =? 2) then Ret None else
  let! rl := idx s 3 in
  let rlen := bz rl in
  if (rlen <=? 0) || (Z.of_nat (length s) - 4 - 3 <? rlen) then Ret None else
  let! rb := slice s 4 (4 + rlen) in
  let! rc := if der then canonical_padding rb else Ret true in
  if negb rc then Ret None else
  let i := 4 + rlen in
  let! m2 := idx s i in
  if negb (bz m2 =? 2) then Ret None else
  let! sl2 := idx s (i + 1) in
  let slen := bz sl2 in
  if (slen <=? 0) || (Z.of_nat (length s) - (i + 2) <? slen) then Ret None else
  let! sb := slice s (i + 2) (i + 2 + slen) in
  let! sc := if der then canonical_padding sb else Ret true in
  if negb sc then Ret None else
  if negb (i + 2 + slen =? Z.of_nat (length s)) then Ret None else
  let r := of_be rb in let s' := of_be sb in
  if negb (Z.sgn r =? 1) then Ret None else
  if negb (Z.sgn s' =? 1) then Ret None else
  if N <=? r then Ret None else
  if N <=? s' then Ret None else Ret (Some (r, s')).

(** ** ECDSA *)
(** 263-276 hashToInt: the order has 256 bits, so there are no excess bits *)
Definition hash_to_int (h : bytes) : Z := of_be (firstn 32 h).
(** 531-549 int2octets with rolen = 32 *)
Definition int2octets (v : Z) : bytes :=
  let o := to_be v in
  if (length o <? 32)%nat then repeat (zb 0) (32 - length o) ++ o
  else if (32 <? length o)%nat then skipn (length o - 32) o else o.
(** 552-559 bits2octets *)
Definition bits2octets (h : bytes) : bytes :=
  let z1 := hash_to_int h in let z2 := z1 - N in
  if z2 <? 0 then int2octets z1 else int2octets z2.
Section Hmac.
  (** mac 523-527: HMAC-SHA256 of key and message; its result has 32 bytes, so step H2 (504-507) takes one pass *)
  Variable HM : bytes -> bytes -> bytes.
  (** 499-519: the loop need not end, so it takes fuel; [None] = still searching *)
  Fixpoint nonce_loop (fuel : nat) (k v : bytes) : option Z :=
    match fuel with
    | O => None
    | S f =>
      let v := HM k v in
      let secret := hash_to_int v in
      if (1 <=? secret) && (secret <? N) then Some secret
      else let k := HM k (v ++ [zb 0]) in nonce_loop f k (HM k v)
    end.
  (** 472-497 nonceRFC6979 *)
  Definition nonce_rfc (fuel : nat) (d : Z) (h : bytes) : option Z :=
    let bx := int2octets d ++ bits2octets h in
    let v := repeat (zb 1) 32 in
    let k := repeat (zb 0) 32 in
    let k := HM k ((v ++ [zb 0]) ++ bx) in
    let v := HM k v in
    let k := HM k ((v ++ [zb 1]) ++ bx) in
    let v := HM k v in
    nonce_loop fuel k v.
  Variable T : table.
  (** privkey.go 21-35 PrivKeyFromBytes: the number and the public key *)
  Definition priv_from_bytes (pk : bytes) : outcome (Z * (Z * Z)) := let! q := deref (s_base_mul T pk) in Ret (of_be pk, q).
  (** 446-468: the rest of signRFC6979, for a given nonce; an error is [None].  ModInverse of an inverse that does not exist would be
      used as nil: a panic *)
  Definition sign_nonce (d : Z) (h : bytes) (k : Z) : outcome (option (Z * Z)) :=
    let! q := deref (s_base_mul T (to_be k)) in
    let r := fst q mod N in
    if Z.sgn r =? 0 then Ret None else
    let e := hash_to_int h in
    let! inv := deref (invm k N) in
    let s := ((d * r + e) * inv) mod N in
    let s := if half_order <? s then N - s else s in
    if Z.sgn s =? 0 then Ret None else Ret (Some (r, s)).
  (** 441-468 signRFC6979; privkey.go 61-63 Sign *)
  Definition sign (fuel : nat) (d : Z) (h : bytes) : option (outcome (option (Z * Z))) :=
    match nonce_rfc fuel d h with Some k => Some (sign_nonce d h k) | None => None end.
  (** crypto/ecdsa.Verify, generic curves *)
  Definition verify (Q : Z * Z) (h : bytes) (rs : Z * Z) : outcome bool :=
    let '(r, s) := rs in
    if (Z.sgn r <=? 0) || (Z.sgn s <=? 0) then Ret false else
    if (N <=? r) || (N <=? s) then Ret false else
    let e := hash_to_int h in
    let! w := deref (invm s N) in
    let u1 := (e * w) mod N in
    let u2 := (w * r) mod N in
    let! p1 := deref (s_base_mul T (to_be u1)) in
    let p2 := s_mul Q (to_be u2) in
    let '(x, y) := s_add p1 p2 in
    if (Z.sgn x =? 0) && (Z.sgn y =? 0) then Ret false else
    Ret (x mod N =? r).
  (** 285-360 recoverKeyFromSignature, for r, s >= 0 (both callers parse or compute them so) *)
  Definition recover (rs : Z * Z) (h : bytes) (iter : Z) (checks : bool) : outcome (option (Z * Z)) :=
    let '(r, s) := rs in
    if N <=? r then Ret None else
    if Z.sgn r =? 0 then Ret None else
    if N <=? s then Ret None else
    if Z.sgn s =? 0 then Ret None else
    let rx := N * (iter / 2) + r in
    if p256k1 <=? rx then Ret None else
    match decompress_fe rx (iter mod 2 =? 1) with
    | None => Ret None
    | Some ry =>
      let '(nx, ny) := if checks then s_mul (rx, ry) (to_be N) else (0, 0) in
      if negb (Z.sgn nx =? 0) || negb (Z.sgn ny =? 0) then Ret None else
      let e := hash_to_int h in
      let! invr := deref (invm r N) in
      let invrs := (invr * s) mod N in
      let sr := s_mul (rx, ry) (to_be invrs) in
      let e := (((- e) mod N) * invr) mod N in
      let! meg := deref (s_base_mul T (to_be e)) in
      Ret (Some (s_add sr meg))
    end.
  (** 370-411 SignCompact: the search over i, then header, R and S padded to 32 bytes *)
  Fixpoint compact_loop (is : list Z) (rs : Z * Z) (Q : Z * Z) (h : bytes) (cmp : bool) : outcome (option bytes) :=
    match is with
    | [] => Ret None
    | i :: is =>
      let! pk := recover rs h i true in
      match pk with
      | Some pk => if (fst pk =? fst Q) && (snd pk =? snd Q) then
          Ret (Some (zb ((27 + i) mod 256 + (if cmp then 4 else 0)) :: pad32 (fst rs) ++ pad32 (snd rs)))
        else compact_loop is rs Q h cmp
      | None => compact_loop is rs Q h cmp
      end
    end.
  (** cofactor H = 1: four candidates *)
  Definition sign_compact (fuel : nat) (d : Z) (Q : Z * Z) (h : bytes) (cmp : bool) : option (outcome (option bytes)) :=
    match sign fuel d h with
    | None => None
    | Some o => Some (let! rs := o in match rs with None => Ret None | Some rs => compact_loop [0; 1; 2; 3] rs Q h cmp end)
    end.
  (** 417-438 RecoverCompact *)
  Definition recover_compact (sg h : bytes) : outcome (option ((Z * Z) * bool)) :=
    match sg with
    | [] => Ret None
    | f :: r =>
      if negb (length sg =? 65)%nat then Ret None else
      let m := (bz f - 27) mod 256 in
      let iter := Z.land m 251 in
      let! k := recover (of_be (firstn 32 r), of_be (skipn 32 r)) h iter false in
      match k with Some k => Ret (Some (k, Z.land m 4 =? 4)) | None => Ret None end
    end.
End Hmac.
