(** SecpCurve.v -- btcec/v1/btcec.go: the elliptic.Curve methods of btcec.S256() (tss.S256(), tss/curve.go 78-80), and the table generator of
    btcec/v1/gensecp256k1.go with the loader of precompute.go.

    A Jacobian point is a triple of field values.  A Go method that stores into its arguments x3, y3, z3 is a function that returns them.
    Where the arguments x2, y2, z2 are normalized in place and used again by the caller, the function also returns their new values; the first
    operand x1, y1, z1 is in every call either overwritten by the result or dropped, so its in-place normalization is not returned.  Every
    method reads an argument for the last time before it writes a result that the caller aliases with it (ScalarMult, ScalarBaseMult and the
    generator pass qx, qy, qz as first operand and as result), so the aliased calls compute the same values. *)
From Verif Require Import Base BigInt SecpField SecpFieldThm SecpPrimes Secp256k1.

Definition jp : Type := fe * fe * fe.
Definition fe0 : fe := fe_int 0.
Definition jzero : jp := (fe0, fe0, fe0).

(** btcec.go 82-88 bigAffineToField, one coordinate: x.Bytes() is the absolute value *)
Definition to_fe (x : Z) : fe := fe_set_slice (to_be x).

(** btcec.go 92-113 fieldJacobianToBigAffine *)
Definition to_affine (q : jp) : Z * Z :=
  let '(x, y, z) := q in
  let zi := fe_inv z in
  let t := fe_sq zi in
  let x := fe_mul x t in
  let y := fe_mul y (fe_mul t zi) in
  (of_be (fe_bytes (fe_norm x)), of_be (fe_bytes (fe_norm y))).

(** btcec.go 118-126 IsOnCurve *)
Definition is_on_curve (x y : Z) : bool :=
  let fx := to_fe x in let fy := to_fe y in
  fe_eqb (fe_norm (fe_sq fy)) (fe_norm (fe_add_int (fe_mul (fe_sq fx) fx) 7)).

(** btcec.go 489-533 doubleZ1EqualsOne *)
Definition dbl_z1 (x1 y1 : fe) : jp :=
  let z3 := fe_mul_int y1 2 in
  let a := fe_sq x1 in
  let b := fe_sq y1 in
  let c := fe_sq b in
  let b := fe_sq (fe_add b x1) in
  let d := fe_neg (fe_add a c) 2 in
  let d := fe_mul_int (fe_add d b) 2 in
  let e := fe_mul_int a 3 in
  let f := fe_sq e in
  let x3 := fe_neg (fe_mul_int d 2) 16 in
  let x3 := fe_add x3 f in
  let f := fe_norm (fe_add (fe_neg x3 18) d) in
  let y3 := fe_neg (fe_mul_int c 8) 8 in
  let y3 := fe_add y3 (fe_mul f e) in
  (fe_norm x3, fe_norm y3, fe_norm z3).
(** btcec.go 539-582 doubleGeneric *)
Definition dbl_gen (x1 y1 z1 : fe) : jp :=
  let z3 := fe_mul_int (fe_mul y1 z1) 2 in
  let a := fe_sq x1 in
  let b := fe_sq y1 in
  let c := fe_sq b in
  let b := fe_sq (fe_add b x1) in
  let d := fe_neg (fe_add a c) 2 in
  let d := fe_mul_int (fe_add d b) 2 in
  let e := fe_mul_int a 3 in
  let f := fe_sq e in
  let x3 := fe_neg (fe_mul_int d 2) 16 in
  let x3 := fe_add x3 f in
  let f := fe_norm (fe_add (fe_neg x3 18) d) in
  let y3 := fe_neg (fe_mul_int c 8) 8 in
  let y3 := fe_add y3 (fe_mul f e) in
  (fe_norm x3, fe_norm y3, fe_norm z3).
(** btcec.go 586-607 doubleJacobian *)
Definition dbl_jac (q : jp) : jp :=
  let '(x1, y1, z1) := q in
  if fe_is_zero y1 || fe_is_zero z1 then jzero
  else let z1 := fe_norm z1 in if fe_eqb z1 (fe_int 1) then dbl_z1 x1 y1 else dbl_gen x1 y1 z1.

(** btcec.go 133-192 addZ1AndZ2EqualsOne: the result, and x2, y2 afterwards *)
Definition add_ones (x1 y1 z1 x2 y2 : fe) : jp * (fe * fe) :=
  let x1 := fe_norm x1 in let y1 := fe_norm y1 in let x2 := fe_norm x2 in let y2 := fe_norm y2 in
  (if fe_eqb x1 x2 then if fe_eqb y1 y2 then dbl_jac (x1, y1, z1) else jzero
   else
    let h := fe_add (fe_neg x1 1) x2 in
    let i := fe_mul_int (fe_sq h) 4 in
    let j := fe_mul h i in
    let r := fe_mul_int (fe_add (fe_neg y1 1) y2) 2 in
    let v := fe_mul x1 i in
    let negJ := fe_neg j 1 in
    let neg2V := fe_neg (fe_mul_int v 2) 2 in
    let x3 := fe_add (fe_add (fe_sq r) negJ) neg2V in
    let negX3 := fe_neg x3 6 in
    let j := fe_neg (fe_mul_int (fe_mul j y1) 2) 2 in
    let y3 := fe_add (fe_mul (fe_add v negX3) r) j in
    let z3 := fe_mul_int h 2 in
    (fe_norm x3, fe_norm y3, fe_norm z3), (x2, y2)).
(** btcec.go 199-260 addZ1EqualsZ2 *)
Definition add_same_z (x1 y1 z1 x2 y2 : fe) : jp * (fe * fe) :=
  let x1 := fe_norm x1 in let y1 := fe_norm y1 in let x2 := fe_norm x2 in let y2 := fe_norm y2 in
  (if fe_eqb x1 x2 then if fe_eqb y1 y2 then dbl_jac (x1, y1, z1) else jzero
   else
    let negX1 := fe_neg x1 1 in
    let negY1 := fe_neg y1 1 in
    let a := fe_add negX1 x2 in
    let b := fe_sq a in
    let c := fe_add negY1 y2 in
    let d := fe_sq c in
    let e := fe_mul x1 b in
    let negE := fe_neg e 1 in
    let f := fe_mul x2 b in
    let x3 := fe_add (fe_neg (fe_add e f) 3) d in
    let negX3 := fe_norm (fe_neg x3 5) in
    let y3 := fe_neg (fe_mul y1 (fe_add f negE)) 3 in
    let y3 := fe_add y3 (fe_mul (fe_add e negX3) c) in
    let z3 := fe_mul z1 a in
    (fe_norm x3, fe_norm y3, z3), (x2, y2)).
(** btcec.go 268-338 addZ2EqualsOne *)
Definition add_z2_one (x1 y1 z1 x2 y2 : fe) : jp :=
  let x1 := fe_norm x1 in let y1 := fe_norm y1 in
  let z1z1 := fe_sq z1 in
  let u2 := fe_norm (fe_mul x2 z1z1) in
  let s2 := fe_norm (fe_mul (fe_mul y2 z1z1) z1) in
  if fe_eqb x1 u2 then if fe_eqb y1 s2 then dbl_jac (x1, y1, z1) else jzero
  else
    let negX1 := fe_neg x1 1 in
    let h := fe_add u2 negX1 in
    let hh := fe_sq h in
    let i := fe_mul_int hh 4 in
    let j := fe_mul h i in
    let negY1 := fe_neg y1 1 in
    let r := fe_mul_int (fe_add s2 negY1) 2 in
    let rr := fe_sq r in
    let v := fe_mul x1 i in
    let x3 := fe_neg (fe_add (fe_mul_int v 2) j) 3 in
    let x3 := fe_add x3 rr in
    let negX3 := fe_neg x3 5 in
    let y3 := fe_neg (fe_mul_int (fe_mul y1 j) 2) 2 in
    let y3 := fe_add y3 (fe_mul (fe_add v negX3) r) in
    let z3 := fe_sq (fe_add z1 h) in
    let z3 := fe_add z3 (fe_neg (fe_add z1z1 hh) 2) in
    (fe_norm x3, fe_norm y3, fe_norm z3).
(** btcec.go 344-413 addGeneric *)
Definition add_gen (x1 y1 z1 x2 y2 z2 : fe) : jp :=
  let z1z1 := fe_sq z1 in
  let z2z2 := fe_sq z2 in
  let u1 := fe_norm (fe_mul x1 z2z2) in
  let u2 := fe_norm (fe_mul x2 z1z1) in
  let s1 := fe_norm (fe_mul (fe_mul y1 z2z2) z2) in
  let s2 := fe_norm (fe_mul (fe_mul y2 z1z1) z1) in
  if fe_eqb u1 u2 then if fe_eqb s1 s2 then dbl_jac (x1, y1, z1) else jzero
  else
    let negU1 := fe_neg u1 1 in
    let h := fe_add u2 negU1 in
    let i := fe_sq (fe_mul_int h 2) in
    let j := fe_mul h i in
    let negS1 := fe_neg s1 1 in
    let r := fe_mul_int (fe_add s2 negS1) 2 in
    let rr := fe_sq r in
    let v := fe_mul u1 i in
    let x3 := fe_neg (fe_add (fe_mul_int v 2) j) 3 in
    let x3 := fe_add x3 rr in
    let negX3 := fe_neg x3 5 in
    let y3 := fe_neg (fe_mul_int (fe_mul s1 j) 2) 2 in
    let y3 := fe_add y3 (fe_mul (fe_add v negX3) r) in
    let z3 := fe_sq (fe_add z1 z2) in
    let z3 := fe_add z3 (fe_neg (fe_add z1z1 z2z2) 2) in
    let z3 := fe_mul z3 h in
    (fe_norm x3, fe_norm y3, z3).
(** btcec.go 417-457 addJacobian: the result, and x2, y2, z2 afterwards *)
Definition jinf (q : jp) : bool := let '(x, y, z) := q in (fe_is_zero x && fe_is_zero y) || fe_is_zero z.
Definition add_jac (p q : jp) : jp * jp :=
  if jinf p then (q, q)
  else if jinf q then (p, q)
  else
    let '(x1, y1, z1) := p in let '(x2, y2, z2) := q in
    let z1 := fe_norm z1 in let z2 := fe_norm z2 in
    let one1 := fe_eqb z1 (fe_int 1) in let one2 := fe_eqb z2 (fe_int 1) in
    if one1 && one2 then let '(r, (x2, y2)) := add_ones x1 y1 z1 x2 y2 in (r, (x2, y2, z2))
    else if fe_eqb z1 z2 then let '(r, (x2, y2)) := add_same_z x1 y1 z1 x2 y2 in (r, (x2, y2, z2))
    else if one2 then (add_z2_one x1 y1 z1 x2 y2, (x2, y2, z2))
    else (add_gen x1 y1 z1 x2 y2 z2, (x2, y2, z2)).

(** btcec.go 461-482 Add, 610-626 Double *)
Definition s_add (p q : Z * Z) : Z * Z :=
  let '(x1, y1) := p in let '(x2, y2) := q in
  if (x1 =? 0) && (y1 =? 0) then (x2, y2)
  else if (x2 =? 0) && (y2 =? 0) then (x1, y1)
  else to_affine (fst (add_jac (to_fe x1, to_fe y1, fe_int 1) (to_fe x2, to_fe y2, fe_int 1))).
Definition s_double (p : Z * Z) : Z * Z :=
  let '(x1, y1) := p in if y1 =? 0 then (0, 0) else to_affine (dbl_jac (to_fe x1, to_fe y1, fe_int 1)).

(** btcec.go 635-668 splitK: k1.Bytes(), k2.Bytes() drop the sign, which is returned separately (here: the two integers) *)
Definition split_k (k : bytes) : Z * Z :=
  let k := of_be k in
  let c1 := (b2_256 * k) / n256k1 in
  let c2 := (b1_256 * k) / n256k1 in
  ((k - c1 * a1_256) + c2 * a2_256, c2 * b2_256 - c1 * b1_256).
(** btcec.go 673-684 moduloReduce *)
Definition modulo_reduce (k : bytes) : bytes := if (32 <? length k)%nat then to_be (of_be k mod n256k1) else k.

(** btcec.go 693-761 NAF.  One bit: the two result bytes and the carry *)
Definition naf_bit (j : Z) (cur next : bool) (s : Z * Z * bool) : Z * Z * bool :=
  let '(pos, neg, carry) := s in
  if carry then
    if cur then (pos, neg, true)
    else if next then (pos, neg + 2 ^ j, true) else (pos + 2 ^ j, neg, false)
  else if cur then if next then (pos, neg + 2 ^ j, true) else (pos + 2 ^ j, neg, false)
  else (pos, neg, false).
(** the loop 710-755 over the eight bits of one byte; [nl] tells whether the next byte (k[i-1]) is odd *)
Fixpoint naf_bits (fuel : nat) (j b : Z) (nl : bool) (s : Z * Z * bool) : Z * Z * bool :=
  match fuel with
  | O => s
  | S fuel =>
    let cur := Z.land b 1 =? 1 in
    let next := if j =? 7 then nl else Z.land b 2 =? 2 in
    naf_bits fuel (j + 1) (Z.shiftr b 1) nl (naf_bit j cur next s)
  end.
Definition naf_byte (b : Z) (nl carry : bool) : Z * Z * bool := naf_bits 8 0 b nl (0, 0, carry).
(** the loop 708-756 over the bytes, from the last (head of the list) to the first *)
Fixpoint naf_bytes (rk : list Z) (carry : bool) (pos neg : list Z) : list Z * list Z * bool :=
  match rk with
  | [] => (pos, neg, carry)
  | b :: rk =>
    let nl := match rk with [] => false | b' :: _ => Z.land b' 1 =? 1 end in
    let '(p, n, c) := naf_byte b nl carry in
    naf_bytes rk c (p :: pos) (n :: neg)
  end.
Definition naf (k : bytes) : list Z * list Z :=
  let '(pos, neg, carry) := naf_bytes (rev (map bz k)) false [] [] in
  if carry then (1 :: pos, 0 :: neg) else (pos, neg).

(** btcec.go 765-863 ScalarMult: an operand with its y coordinate and the negated one *)
Definition opnd : Type := fe * fe * fe * fe.
(** 827-842: one addition, depending on the two top bits *)
Definition add_bit (q : jp) (o : opnd) (pos neg : bool) : jp * opnd :=
  let '(x, y, yn, z) := o in
  if pos then let '(q, (x, y, z)) := add_jac q (x, y, z) in (q, (x, y, yn, z))
  else if neg then let '(q, (x, yn, z)) := add_jac q (x, yn, z) in (q, (x, y, yn, z))
  else (q, o).
Definition top (b : Z) : bool := Z.land b 128 =? 128.
Definition shl8 (b : Z) : Z := (2 * b) mod 256.
(** 823-847: the eight bits of one column of bytes *)
Fixpoint mul_bits (fuel : nat) (b1p b1n b2p b2n : Z) (st : jp * opnd * opnd) : jp * opnd * opnd :=
  match fuel with
  | O => st
  | S fuel =>
    let '(q, o1, o2) := st in
    let q := dbl_jac q in
    let '(q, o1) := add_bit q o1 (top b1p) (top b1n) in
    let '(q, o2) := add_bit q o2 (top b2p) (top b2n) in
    mul_bits fuel (shl8 b1p) (shl8 b1n) (shl8 b2p) (shl8 b2n) (q, o1, o2)
  end.
(** 806-822: byte number i of a slice padded on the left to length m *)
Definition byte_at (m : nat) (l : list Z) (i : nat) : Z := if (i <? m - length l)%nat then 0 else nth (i - (m - length l)) l 0.
Definition s_mul (B : Z * Z) (k : bytes) : Z * Z :=
  let '(k1, k2) := split_k (modulo_reduce k) in
  let p1x := to_fe (fst B) in let p1y := to_fe (snd B) in
  let p1yNeg := fe_neg p1y 1 in
  let p2x := fe_mul p1x (to_fe beta256) in
  let o1 := if k1 <? 0 then (p1x, p1yNeg, p1y, fe_int 1) else (p1x, p1y, p1yNeg, fe_int 1) in
  let o2 := if k2 <? 0 then (p2x, p1yNeg, p1y, fe_int 1) else (p2x, p1y, p1yNeg, fe_int 1) in
  let '(k1p, k1n) := naf (to_be k1) in
  let '(k2p, k2n) := naf (to_be k2) in
  let m := Nat.max (length k1p) (length k2p) in
  let '(q, _, _) := fold_left (fun st i => mul_bits 8 (byte_at m k1p i) (byte_at m k1n i) (byte_at m k2p i) (byte_at m k2n i) st) (seq 0 m) (jzero, o1, o2) in
  to_affine q.

(** precompute.go 23-66: the table, 32 rows of 256 Jacobian points *)
Definition table : Type := list (list jp).
(** btcec.go 870-888 ScalarBaseMult: [None] is an index out of range *)
Fixpoint base_loop (T : table) (r : nat) (k : bytes) (q : jp) : option jp :=
  match k with
  | [] => Some q
  | b :: k =>
    match nth_error T r with
    | None => None
    | Some row => match nth_error row (Z.to_nat (bz b)) with None => None | Some p => base_loop T (S r) k (fst (add_jac q p)) end
    end
  end.
Definition s_base_mul (T : table) (k : bytes) : option (Z * Z) :=
  let k := modulo_reduce k in
  if (length T <? length k)%nat then None else option_map to_affine (base_loop T (length T - length k) k jzero).

(** gensecp256k1.go 26-38 getDoublingPoints *)
Fixpoint dbl_points (n : nat) (p : jp) : list jp := match n with O => [] | S n => p :: dbl_points n (dbl_jac p) end.
Definition g_jac : jp := (to_fe gx256, to_fe gy256, fe_int 1).
(** gensecp256k1.go 57-63: one table entry; the points of the window are normalized in place *)
Fixpoint window (ps : list jp) (i : Z) (q : jp) : jp * list jp :=
  match ps with
  | [] => (q, [])
  | p :: ps =>
    let '(q, p) := if Z.odd i then add_jac q p else (q, p) in
    let '(q, ps) := window ps (i / 2) q in (q, p :: ps)
  end.
(** gensecp256k1.go 55-77: one row *)
Fixpoint row (n : nat) (i : Z) (ps : list jp) : list jp :=
  match n with O => [] | S n => let '(q, ps) := window ps i jzero in q :: row n (i + 1) ps end.
(** gensecp256k1.go 43-81 SerializedBytePoints followed by precompute.go 40-64: every word is written and read back as four bytes *)
Definition gen_table : table :=
  let d := dbl_points 256 g_jac in
  map (fun byteNum => row 256 0 (firstn 8 (skipn (8 * (31 - byteNum)) d))) (seq 0 32).
