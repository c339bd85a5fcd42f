(** SecpField.v -- btcec/v1/field.go: arithmetic modulo the secp256k1 prime on ten 32-bit words in base 2^26.  go.mod
    replaces github.com/btcsuite/btcd/btcec by ./package/github.com/btcsuite/btcd/btcec/v1, so this code is what tss.S256()
    (tss/curve.go 78-80) runs on.

    The bodies of the unrolled Go functions are transcribed statement by statement.  uint32 and uint64 values are integers,
    and every statement ends with the reduction modulo 2^32 or 2^64 ([w32], [w64]); reducing once per statement instead of
    after every + and * gives the same value.  A Go method that stores into its receiver is a function returning the new
    receiver; each of them reads all its arguments before it writes a word an argument could share, so a receiver that is
    also an argument needs no special case. *)
From Verif Require Import Base BigInt NumTh.

Definition w32 (x : Z) : Z := x mod 2 ^ 32.
Definition w64 (x : Z) : Z := x mod 2 ^ 64.
(** x << k on a uint32 *)
Definition shl32 (x k : Z) : Z := w32 (Z.shiftl x k).
(** field.go 70-94 fieldBaseMask, fieldMSBMask, fieldPrimeWordZero, fieldPrimeWordOne *)
Definition base_mask : Z := 67108863.
Definition msb_mask : Z := 4194303.
Definition prime_w0 : Z := 67107887.
Definition prime_w1 : Z := 67108799.

(** field.go 149-151 fieldVal *)
Record fe := Fe { n0 : Z; n1 : Z; n2 : Z; n3 : Z; n4 : Z; n5 : Z; n6 : Z; n7 : Z; n8 : Z; n9 : Z }.

(** field.go 162-173 Zero, 191-195 SetInt *)
Definition fe_int (u : Z) : fe := Fe (w32 u) 0 0 0 0 0 0 0 0 0.

(** field.go 202-229 SetBytes: the argument is an array of 32 bytes *)
Definition fe_set_bytes (b : bytes) : fe :=
  let B i := bz (nth (Z.to_nat i) b (zb 0)) in
  Fe
     (Z.lor (Z.lor (Z.lor (B 31) (shl32 (B 30) 8)) (shl32 (B 29) 16)) (shl32 (Z.land (B 28) 3) 24))
     (Z.lor (Z.lor (Z.lor (Z.shiftr (B 28) 2) (shl32 (B 27) 6)) (shl32 (B 26) 14)) (shl32 (Z.land (B 25) 15) 22))
     (Z.lor (Z.lor (Z.lor (Z.shiftr (B 25) 4) (shl32 (B 24) 4)) (shl32 (B 23) 12)) (shl32 (Z.land (B 22) 63) 20))
     (Z.lor (Z.lor (Z.lor (Z.shiftr (B 22) 6) (shl32 (B 21) 2)) (shl32 (B 20) 10)) (shl32 (B 19) 18))
     (Z.lor (Z.lor (Z.lor (B 18) (shl32 (B 17) 8)) (shl32 (B 16) 16)) (shl32 (Z.land (B 15) 3) 24))
     (Z.lor (Z.lor (Z.lor (Z.shiftr (B 15) 2) (shl32 (B 14) 6)) (shl32 (B 13) 14)) (shl32 (Z.land (B 12) 15) 22))
     (Z.lor (Z.lor (Z.lor (Z.shiftr (B 12) 4) (shl32 (B 11) 4)) (shl32 (B 10) 12)) (shl32 (Z.land (B 9) 63) 20))
     (Z.lor (Z.lor (Z.lor (Z.shiftr (B 9) 6) (shl32 (B 8) 2)) (shl32 (B 7) 10)) (shl32 (B 6) 18))
     (Z.lor (Z.lor (Z.lor (B 5) (shl32 (B 4) 8)) (shl32 (B 3) 16)) (shl32 (Z.land (B 2) 3) 24))
     (Z.lor (Z.lor (Z.shiftr (B 2) 2) (shl32 (B 1) 6)) (shl32 (B 0) 14)).
(** field.go 241-248 SetByteSlice *)
Definition fe_set_slice (b : bytes) : fe :=
  let b := if (32 <? length b)%nat then firstn 32 b else b in
  fe_set_bytes (repeat (zb 0) (32 - length b) ++ b).

(** field.go 266-386 Normalize *)
Definition fe_norm (a : fe) : fe :=
  let '(Fe a0 a1 a2 a3 a4 a5 a6 a7 a8 a9) := a in
  let t9 := a9 in
  let m := Z.shiftr t9 22 in
  let t9 := Z.land t9 msb_mask in
  let t0 := w32 (a0 + m * 977) in
  let t1 := w32 (Z.shiftr t0 26 + a1 + Z.shiftl m 6) in
  let t0 := Z.land t0 base_mask in
  let t2 := w32 (Z.shiftr t1 26 + a2) in
  let t1 := Z.land t1 base_mask in
  let t3 := w32 (Z.shiftr t2 26 + a3) in
  let t2 := Z.land t2 base_mask in
  let t4 := w32 (Z.shiftr t3 26 + a4) in
  let t3 := Z.land t3 base_mask in
  let t5 := w32 (Z.shiftr t4 26 + a5) in
  let t4 := Z.land t4 base_mask in
  let t6 := w32 (Z.shiftr t5 26 + a6) in
  let t5 := Z.land t5 base_mask in
  let t7 := w32 (Z.shiftr t6 26 + a7) in
  let t6 := Z.land t6 base_mask in
  let t8 := w32 (Z.shiftr t7 26 + a8) in
  let t7 := Z.land t7 base_mask in
  let t9 := w32 (Z.shiftr t8 26 + t9) in
  let t8 := Z.land t8 base_mask in
  let m := 1 in
  let m := if t9 =? msb_mask then Z.land m 1 else Z.land m 0 in
  let m := if Z.land (Z.land (Z.land (Z.land (Z.land (Z.land t2 t3) t4) t5) t6) t7) t8 =? base_mask then Z.land m 1 else Z.land m 0 in
  let m := if base_mask <? w32 (Z.shiftr (w32 (t0 + 977)) 26 + t1 + 64) then Z.land m 1 else Z.land m 0 in
  let m := if negb (Z.shiftr t9 22 =? 0) then Z.lor m 1 else Z.lor m 0 in
  let t0 := w32 (t0 + m * 977) in
  let t1 := w32 (Z.shiftr t0 26 + t1 + Z.shiftl m 6) in
  let t0 := Z.land t0 base_mask in
  let t2 := w32 (Z.shiftr t1 26 + t2) in
  let t1 := Z.land t1 base_mask in
  let t3 := w32 (Z.shiftr t2 26 + t3) in
  let t2 := Z.land t2 base_mask in
  let t4 := w32 (Z.shiftr t3 26 + t4) in
  let t3 := Z.land t3 base_mask in
  let t5 := w32 (Z.shiftr t4 26 + t5) in
  let t4 := Z.land t4 base_mask in
  let t6 := w32 (Z.shiftr t5 26 + t6) in
  let t5 := Z.land t5 base_mask in
  let t7 := w32 (Z.shiftr t6 26 + t7) in
  let t6 := Z.land t6 base_mask in
  let t8 := w32 (Z.shiftr t7 26 + t8) in
  let t7 := Z.land t7 base_mask in
  let t9 := w32 (Z.shiftr t8 26 + t9) in
  let t8 := Z.land t8 base_mask in
  let t9 := Z.land t9 msb_mask in
  Fe t0 t1 t2 t3 t4 t5 t6 t7 t8 t9.

(** field.go 395-434 PutBytes, 441-445 Bytes *)
Definition fe_bytes (a : fe) : bytes :=
  let '(Fe a0 a1 a2 a3 a4 a5 a6 a7 a8 a9) := a in map zb [
    (Z.land (Z.shiftr a9 14) 255);
    (Z.land (Z.shiftr a9 6) 255);
    (Z.lor (Z.land (Z.shiftr a8 24) 3) (shl32 (Z.land a9 63) 2));
    (Z.land (Z.shiftr a8 16) 255);
    (Z.land (Z.shiftr a8 8) 255);
    (Z.land a8 255);
    (Z.land (Z.shiftr a7 18) 255);
    (Z.land (Z.shiftr a7 10) 255);
    (Z.land (Z.shiftr a7 2) 255);
    (Z.lor (Z.land (Z.shiftr a6 20) 63) (shl32 (Z.land a7 3) 6));
    (Z.land (Z.shiftr a6 12) 255);
    (Z.land (Z.shiftr a6 4) 255);
    (Z.lor (Z.land (Z.shiftr a5 22) 15) (shl32 (Z.land a6 15) 4));
    (Z.land (Z.shiftr a5 14) 255);
    (Z.land (Z.shiftr a5 6) 255);
    (Z.lor (Z.land (Z.shiftr a4 24) 3) (shl32 (Z.land a5 63) 2));
    (Z.land (Z.shiftr a4 16) 255);
    (Z.land (Z.shiftr a4 8) 255);
    (Z.land a4 255);
    (Z.land (Z.shiftr a3 18) 255);
    (Z.land (Z.shiftr a3 10) 255);
    (Z.land (Z.shiftr a3 2) 255);
    (Z.lor (Z.land (Z.shiftr a2 20) 63) (shl32 (Z.land a3 3) 6));
    (Z.land (Z.shiftr a2 12) 255);
    (Z.land (Z.shiftr a2 4) 255);
    (Z.lor (Z.land (Z.shiftr a1 22) 15) (shl32 (Z.land a2 15) 4));
    (Z.land (Z.shiftr a1 14) 255);
    (Z.land (Z.shiftr a1 6) 255);
    (Z.lor (Z.land (Z.shiftr a0 24) 3) (shl32 (Z.land a1 63) 2));
    (Z.land (Z.shiftr a0 16) 255);
    (Z.land (Z.shiftr a0 8) 255);
    (Z.land a0 255)].

(** field.go 448-455 IsZero, 461-464 IsOdd, 469-479 Equals *)
Definition fe_is_zero (a : fe) : bool :=
  let '(Fe a0 a1 a2 a3 a4 a5 a6 a7 a8 a9) := a in
  Z.lor (Z.lor (Z.lor (Z.lor (Z.lor (Z.lor (Z.lor (Z.lor (Z.lor a0 a1) a2) a3) a4) a5) a6) a7) a8) a9 =? 0.
Definition fe_is_odd (a : fe) : bool := Z.land (n0 a) 1 =? 1.
Definition fe_eqb (a b : fe) : bool :=
  let '(Fe a0 a1 a2 a3 a4 a5 a6 a7 a8 a9) := a in let '(Fe b0 b1 b2 b3 b4 b5 b6 b7 b8 b9) := b in
  Z.lor (Z.lor (Z.lor (Z.lor (Z.lor (Z.lor (Z.lor (Z.lor (Z.lor (Z.lxor a0 b0) (Z.lxor a1 b1)) (Z.lxor a2 b2)) (Z.lxor a3 b3))
    (Z.lxor a4 b4)) (Z.lxor a5 b5)) (Z.lxor a6 b6)) (Z.lxor a7 b7)) (Z.lxor a8 b8)) (Z.lxor a9 b9) =? 0.

(** field.go 486-518 NegateVal, 524-526 Negate *)
Definition fe_neg (a : fe) (mg : Z) : fe :=
  let '(Fe a0 a1 a2 a3 a4 a5 a6 a7 a8 a9) := a in
  Fe (w32 ((mg + 1) * prime_w0 - a0)) (w32 ((mg + 1) * prime_w1 - a1)) (w32 ((mg + 1) * base_mask - a2)) (w32 ((mg + 1) * base_mask - a3))
     (w32 ((mg + 1) * base_mask - a4)) (w32 ((mg + 1) * base_mask - a5)) (w32 ((mg + 1) * base_mask - a6)) (w32 ((mg + 1) * base_mask - a7))
     (w32 ((mg + 1) * base_mask - a8)) (w32 ((mg + 1) * msb_mask - a9)).
(** field.go 534-541 AddInt *)
Definition fe_add_int (a : fe) (u : Z) : fe := let '(Fe a0 a1 a2 a3 a4 a5 a6 a7 a8 a9) := a in Fe (w32 (a0 + w32 u)) a1 a2 a3 a4 a5 a6 a7 a8 a9.
(** field.go 548-565 Add, 571-588 Add2 *)
Definition fe_add (a b : fe) : fe :=
  let '(Fe a0 a1 a2 a3 a4 a5 a6 a7 a8 a9) := a in let '(Fe b0 b1 b2 b3 b4 b5 b6 b7 b8 b9) := b in
  Fe (w32 (a0 + b0)) (w32 (a1 + b1)) (w32 (a2 + b2)) (w32 (a3 + b3)) (w32 (a4 + b4)) (w32 (a5 + b5)) (w32 (a6 + b6)) (w32 (a7 + b7))
     (w32 (a8 + b8)) (w32 (a9 + b9)).
(** field.go 597-618 MulInt *)
Definition fe_mul_int (a : fe) (u : Z) : fe :=
  let '(Fe a0 a1 a2 a3 a4 a5 a6 a7 a8 a9) := a in let u := w32 u in
  Fe (w32 (a0 * u)) (w32 (a1 * u)) (w32 (a2 * u)) (w32 (a3 * u)) (w32 (a4 * u)) (w32 (a5 * u)) (w32 (a6 * u)) (w32 (a7 * u)) (w32 (a8 * u)) (w32 (a9 * u)).

(** field.go 849-896 the end of Mul2, the same statements as 1082-1129, the end of SquareVal *)
Definition fe_red (t0 t1 t2 t3 t4 t5 t6 t7 t8 t9 t10 t11 t12 t13 t14 t15 t16 t17 t18 t19 : Z) : fe :=
  let m := w64 (t0 + t10 * 15632) in
  let t0 := Z.land m base_mask in
  let m := w64 (Z.shiftr m 26 + t1 + t10 * 1024 + t11 * 15632) in
  let t1 := Z.land m base_mask in
  let m := w64 (Z.shiftr m 26 + t2 + t11 * 1024 + t12 * 15632) in
  let t2 := Z.land m base_mask in
  let m := w64 (Z.shiftr m 26 + t3 + t12 * 1024 + t13 * 15632) in
  let t3 := Z.land m base_mask in
  let m := w64 (Z.shiftr m 26 + t4 + t13 * 1024 + t14 * 15632) in
  let t4 := Z.land m base_mask in
  let m := w64 (Z.shiftr m 26 + t5 + t14 * 1024 + t15 * 15632) in
  let t5 := Z.land m base_mask in
  let m := w64 (Z.shiftr m 26 + t6 + t15 * 1024 + t16 * 15632) in
  let t6 := Z.land m base_mask in
  let m := w64 (Z.shiftr m 26 + t7 + t16 * 1024 + t17 * 15632) in
  let t7 := Z.land m base_mask in
  let m := w64 (Z.shiftr m 26 + t8 + t17 * 1024 + t18 * 15632) in
  let t8 := Z.land m base_mask in
  let m := w64 (Z.shiftr m 26 + t9 + t18 * 1024 + t19 * 68719492368) in
  let t9 := Z.land m msb_mask in
  let m := Z.shiftr m 22 in
  let d := w64 (t0 + m * 977) in
  let f0 := w32 (Z.land d base_mask) in
  let d := w64 (Z.shiftr d 26 + t1 + m * 64) in
  let f1 := w32 (Z.land d base_mask) in
  let f2 := w32 (w64 (Z.shiftr d 26 + t2)) in
  let f3 := w32 (t3) in
  let f4 := w32 (t4) in
  let f5 := w32 (t5) in
  let f6 := w32 (t6) in
  let f7 := w32 (t7) in
  let f8 := w32 (t8) in
  let f9 := w32 (t9) in
  Fe f0 f1 f2 f3 f4 f5 f6 f7 f8 f9.

(** field.go 639-819 the start of Mul2; 627-629 Mul is Mul2 with the receiver as first factor *)
Definition fe_mul (a b : fe) : fe :=
  let '(Fe a0 a1 a2 a3 a4 a5 a6 a7 a8 a9) := a in let '(Fe b0 b1 b2 b3 b4 b5 b6 b7 b8 b9) := b in
  let m := w64 (a0 * b0) in
  let t0 := Z.land m base_mask in
  let m := w64 (Z.shiftr m 26 + a0 * b1 + a1 * b0) in
  let t1 := Z.land m base_mask in
  let m := w64 (Z.shiftr m 26 + a0 * b2 + a1 * b1 + a2 * b0) in
  let t2 := Z.land m base_mask in
  let m := w64 (Z.shiftr m 26 + a0 * b3 + a1 * b2 + a2 * b1 + a3 * b0) in
  let t3 := Z.land m base_mask in
  let m := w64 (Z.shiftr m 26 + a0 * b4 + a1 * b3 + a2 * b2 + a3 * b1 + a4 * b0) in
  let t4 := Z.land m base_mask in
  let m := w64 (Z.shiftr m 26 + a0 * b5 + a1 * b4 + a2 * b3 + a3 * b2 + a4 * b1 + a5 * b0) in
  let t5 := Z.land m base_mask in
  let m := w64 (Z.shiftr m 26 + a0 * b6 + a1 * b5 + a2 * b4 + a3 * b3 + a4 * b2 + a5 * b1 + a6 * b0) in
  let t6 := Z.land m base_mask in
  let m := w64 (Z.shiftr m 26 + a0 * b7 + a1 * b6 + a2 * b5 + a3 * b4 + a4 * b3 + a5 * b2 + a6 * b1 + a7 * b0) in
  let t7 := Z.land m base_mask in
  let m := w64 (Z.shiftr m 26 + a0 * b8 + a1 * b7 + a2 * b6 + a3 * b5 + a4 * b4 + a5 * b3 + a6 * b2 + a7 * b1 + a8 * b0) in
  let t8 := Z.land m base_mask in
  let m := w64 (Z.shiftr m 26 + a0 * b9 + a1 * b8 + a2 * b7 + a3 * b6 + a4 * b5 + a5 * b4 + a6 * b3 + a7 * b2 + a8 * b1 + a9 * b0) in
  let t9 := Z.land m base_mask in
  let m := w64 (Z.shiftr m 26 + a1 * b9 + a2 * b8 + a3 * b7 + a4 * b6 + a5 * b5 + a6 * b4 + a7 * b3 + a8 * b2 + a9 * b1) in
  let t10 := Z.land m base_mask in
  let m := w64 (Z.shiftr m 26 + a2 * b9 + a3 * b8 + a4 * b7 + a5 * b6 + a6 * b5 + a7 * b4 + a8 * b3 + a9 * b2) in
  let t11 := Z.land m base_mask in
  let m := w64 (Z.shiftr m 26 + a3 * b9 + a4 * b8 + a5 * b7 + a6 * b6 + a7 * b5 + a8 * b4 + a9 * b3) in
  let t12 := Z.land m base_mask in
  let m := w64 (Z.shiftr m 26 + a4 * b9 + a5 * b8 + a6 * b7 + a7 * b6 + a8 * b5 + a9 * b4) in
  let t13 := Z.land m base_mask in
  let m := w64 (Z.shiftr m 26 + a5 * b9 + a6 * b8 + a7 * b7 + a8 * b6 + a9 * b5) in
  let t14 := Z.land m base_mask in
  let m := w64 (Z.shiftr m 26 + a6 * b9 + a7 * b8 + a8 * b7 + a9 * b6) in
  let t15 := Z.land m base_mask in
  let m := w64 (Z.shiftr m 26 + a7 * b9 + a8 * b8 + a9 * b7) in
  let t16 := Z.land m base_mask in
  let m := w64 (Z.shiftr m 26 + a8 * b9 + a9 * b8) in
  let t17 := Z.land m base_mask in
  let m := w64 (Z.shiftr m 26 + a9 * b9) in
  let t18 := Z.land m base_mask in
  let t19 := Z.shiftr m 26 in
  fe_red t0 t1 t2 t3 t4 t5 t6 t7 t8 t9 t10 t11 t12 t13 t14 t15 t16 t17 t18 t19.

(** field.go 919-1053 the start of SquareVal; 908-910 Square *)
Definition fe_sq (a : fe) : fe :=
  let '(Fe a0 a1 a2 a3 a4 a5 a6 a7 a8 a9) := a in
  let m := w64 (a0 * a0) in
  let t0 := Z.land m base_mask in
  let m := w64 (Z.shiftr m 26 + 2 * a0 * a1) in
  let t1 := Z.land m base_mask in
  let m := w64 (Z.shiftr m 26 + 2 * a0 * a2 + a1 * a1) in
  let t2 := Z.land m base_mask in
  let m := w64 (Z.shiftr m 26 + 2 * a0 * a3 + 2 * a1 * a2) in
  let t3 := Z.land m base_mask in
  let m := w64 (Z.shiftr m 26 + 2 * a0 * a4 + 2 * a1 * a3 + a2 * a2) in
  let t4 := Z.land m base_mask in
  let m := w64 (Z.shiftr m 26 + 2 * a0 * a5 + 2 * a1 * a4 + 2 * a2 * a3) in
  let t5 := Z.land m base_mask in
  let m := w64 (Z.shiftr m 26 + 2 * a0 * a6 + 2 * a1 * a5 + 2 * a2 * a4 + a3 * a3) in
  let t6 := Z.land m base_mask in
  let m := w64 (Z.shiftr m 26 + 2 * a0 * a7 + 2 * a1 * a6 + 2 * a2 * a5 + 2 * a3 * a4) in
  let t7 := Z.land m base_mask in
  let m := w64 (Z.shiftr m 26 + 2 * a0 * a8 + 2 * a1 * a7 + 2 * a2 * a6 + 2 * a3 * a5 + a4 * a4) in
  let t8 := Z.land m base_mask in
  let m := w64 (Z.shiftr m 26 + 2 * a0 * a9 + 2 * a1 * a8 + 2 * a2 * a7 + 2 * a3 * a6 + 2 * a4 * a5) in
  let t9 := Z.land m base_mask in
  let m := w64 (Z.shiftr m 26 + 2 * a1 * a9 + 2 * a2 * a8 + 2 * a3 * a7 + 2 * a4 * a6 + a5 * a5) in
  let t10 := Z.land m base_mask in
  let m := w64 (Z.shiftr m 26 + 2 * a2 * a9 + 2 * a3 * a8 + 2 * a4 * a7 + 2 * a5 * a6) in
  let t11 := Z.land m base_mask in
  let m := w64 (Z.shiftr m 26 + 2 * a3 * a9 + 2 * a4 * a8 + 2 * a5 * a7 + a6 * a6) in
  let t12 := Z.land m base_mask in
  let m := w64 (Z.shiftr m 26 + 2 * a4 * a9 + 2 * a5 * a8 + 2 * a6 * a7) in
  let t13 := Z.land m base_mask in
  let m := w64 (Z.shiftr m 26 + 2 * a5 * a9 + 2 * a6 * a8 + a7 * a7) in
  let t14 := Z.land m base_mask in
  let m := w64 (Z.shiftr m 26 + 2 * a6 * a9 + 2 * a7 * a8) in
  let t15 := Z.land m base_mask in
  let m := w64 (Z.shiftr m 26 + 2 * a7 * a9 + a8 * a8) in
  let t16 := Z.land m base_mask in
  let m := w64 (Z.shiftr m 26 + 2 * a8 * a9) in
  let t17 := Z.land m base_mask in
  let m := w64 (Z.shiftr m 26 + a9 * a9) in
  let t18 := Z.land m base_mask in
  let t19 := Z.shiftr m 26 in
  fe_red t0 t1 t2 t3 t4 t5 t6 t7 t8 t9 t10 t11 t12 t13 t14 t15 t16 t17 t18 t19.


(** n times Square *)
Fixpoint fe_sqn (k : nat) (a : fe) : fe := match k with O => a | S k => fe_sqn k (fe_sq a) end.
(** field.go 1139-1241 Inverse: the 21 groups of lines "ten times Square, then Mul by a1023" (1166-1228) are one iteration *)
Fixpoint fe_runs (k : nat) (a1023 f : fe) : fe := match k with O => f | S k => fe_runs k a1023 (fe_mul (fe_sqn 10 f) a1023) end.
Definition fe_inv (f : fe) : fe :=
  let a2 := fe_sq f in
  let a3 := fe_mul a2 f in
  let a4 := fe_sq a2 in
  let a10 := fe_mul (fe_sq a4) a2 in
  let a11 := fe_mul a10 f in
  let a21 := fe_mul a10 a11 in
  let a42 := fe_sq a21 in
  let a45 := fe_mul a42 a3 in
  let a63 := fe_mul a42 a21 in
  let a1019 := fe_mul (fe_sqn 4 a63) a11 in
  let a1023 := fe_mul a1019 a4 in
  let f := fe_runs 21 a1023 a63 in
  let f := fe_mul (fe_sqn 10 f) a1019 in
  let f := fe_mul (fe_sqn 10 f) a1023 in
  let f := fe_mul (fe_sqn 10 f) a1023 in
  fe_mul (fe_sqn 10 f) a45.

(** field.go 100-109 fieldQBytes *)
Definition q_bytes : list Z := [63] ++ repeat 255 27 ++ [191; 255; 255; 12].
(** field.go 1254-1340 SqrtVal, 1354-1356 Sqrt: one step per byte of Q; [sm] is f.Square().Mul(x) *)
Definition fe_sqrt_step (x f : fe) (b : Z) : fe :=
  let sm f := fe_mul (fe_sq f) x in
  if b =? 255 then sm (sm (sm (sm (sm (sm (sm (sm f)))))))
  else if b =? 63 then sm (sm (sm (sm (sm (fe_mul f x)))))
  else if b =? 191 then sm (sm (sm (sm (sm (sm (fe_sq (sm f)))))))
  else fe_sq (fe_sq (sm (sm (fe_sqn 4 f)))).
Definition fe_sqrt (x : fe) : fe := fold_left (fe_sqrt_step x) q_bytes (fe_int 1).
