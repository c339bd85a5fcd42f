(** RangeProofs.v -- crypto/config.go, crypto/encproof, crypto/logproof, the challenge derivation of
    crypto/alice/paillier/affinegroupzkproof.go and crypto/alice/utils/utils.go.

    blake2b-256 is the function argument [B].  Random draws are arguments; the retry loops (100 tries) run over
    lists of draws, an exhausted list standing for ErrExceedMaxRetry.  A nil result of big.Int.Exp that is then
    used, and a nil z1/z3, are panics. *)
From Verif Require Import Base BigInt Text Wire Messages Save Curve NumTh.
From Coq Require Import Znumtheory.

(** math/big BitLen *)
Definition bitlen (z : Z) : Z := if z =? 0 then 0 else Z.log2 (Z.abs z) + 1.
(** crypto/config.go 26-39 NewProofConfig: L = bitlen, epsilon = 2 * bitlen, and Lsh(2, x) = 2^(x+1) *)
Definition cf_lae (q : Z) : Z := 3 * bitlen q.
Definition cf_bound (q : Z) : Z := 2 * 2 ^ cf_lae q.

(** a Pedersen public key with all fields present *)
Record ped := { pe_n : Z; pe_s : Z; pe_t : Z }.

(** utils.go 204-212 InRange with floor 0 *)
Definition in_range0 (x ceil : Z) : bool := (0 <? ceil) && (0 <=? x) && (x <? ceil).
(** utils.go 204-212 InRange *)
Definition in_range (x floor ceil : Z) : bool := (floor <? ceil) && (floor <=? x) && (x <? ceil).
(** utils.go 149-152 IsRelativePrime *)
Definition rel_primeb (a b : Z) : bool := Z.gcd a b =? 1.

(** utils.go 129-147 RandomCoprimeInt over the draws from [0,n) *)
Fixpoint coprime_loop (n : Z) (draws : list Z) : option Z :=
  match draws with
  | [] => None
  | r :: t => if r <=? 1 then coprime_loop n t else if rel_primeb r n then Some r else coprime_loop n t
  end.
Definition random_coprime (n : Z) (draws : list Z) : option Z :=
  if n <=? 2 then None else coprime_loop n (firstn 100 draws).

Section Challenge.
  Variable B : bytes -> bytes.     (* blake2b.Sum256 *)

  (** utils.go 236-244 GetAnyMsg + 270-293 HashProtos: each part is wrapped in an Any, that Any is packed in a
      second Any by MarshalAny; the salt comes last, wrapped once *)
  Definition any_url : bytes := str "type.googleapis.com/google.protobuf.Any".
  Definition hash_input (salt : bytes) (parts : list bytes) : bytes :=
    pb_enc (map (fun b => (1, WLen (any_enc any_url (any_enc [] b)))) parts ++ [(1, WLen (any_enc [] salt))]).
  Definition hash_protos (salt : bytes) (parts : list bytes) : bytes := B (hash_input salt parts).

  (** utils.go 377-395 ExtnedHashOuput, as an integer *)
  Definition ext_blocks (salt msg : bytes) (up : nat) : bytes :=
    flat_map (fun i => B (salt ++ str "," ++ msg ++ str "," ++ itoa (Z.of_nat i))) (seq 0 up).
  Definition ext_hash (salt msg : bytes) (bits : Z) : Z :=
    let up := (bits + 255) / 256 in
    of_be (ext_blocks salt msg (Z.to_nat up)) / 2 ^ (256 * up - bits).
  (** utils.go 307-312 RandomAbsoluteRangeIntBySeed *)
  Definition seed_e (salt seed : bytes) (q : Z) : Z := ext_hash salt seed (bitlen q + 1) - 2 ^ bitlen q.

  (** affinegroupzkproof.go 10-30 GetE over the salts drawn *)
  Fixpoint get_e_loop (q : Z) (parts : list bytes) (salts : list bytes) : option (Z * bytes) :=
    match salts with
    | [] => None
    | s :: t => let e := seed_e s (hash_protos s parts) q in
                if Z.abs e <=? q then Some (e, s) else get_e_loop q parts t
    end.
  Definition get_e (q : Z) (parts : list bytes) (salts : list bytes) : option (Z * bytes) :=
    get_e_loop q parts (firstn 100 salts).
End Challenge.

(** draws of one proof: alpha, mu, gamma from RandomAbsoluteRangeInt, candidates for r, salts *)
Record pdraws := { dr_alpha : Z; dr_mu : Z; dr_r : list Z; dr_gamma : Z; dr_salts : list bytes }.

Section Proofs.
  Variable C : curve.
  Variable B : bytes -> bytes.
  Notation q := (c_n C).

  (** a product of two powers modulo m; a nil power panics *)
  Definition two_pow (a k b l m : Z) : outcome Z :=
    match expm a k m, expm b l m with
    | Some x, Some y => Ret ((x * y) mod m)
    | _, _ => Panic
    end.

  Definition enc_parts (ctx : bytes) (K N : Z) (pd : ped) (Sv A Cc : Z) : list bytes :=
    [ctx; to_be (cf_lae q); to_be K; to_be N; to_be (pe_n pd); to_be (pe_s pd); to_be (pe_t pd);
     to_be Sv; to_be A; to_be Cc].

  (** encproof/proof.go 24-91 NewEncryptRangeMessage; [None] is an error return *)
  Definition enc_new (ctx : bytes) (K N k rho : Z) (pd : ped) (d : pdraws) : outcome (option encmsg) :=
    match random_coprime N (dr_r d) with
    | None => Ret None
    | Some r =>
      if pe_n pd =? 0 then Panic else
      let! Sv := two_pow (pe_s pd) k (pe_t pd) (dr_mu d) (pe_n pd) in
      let! A := two_pow (1 + N) (dr_alpha d) r N (N * N) in
      let! Cc := two_pow (pe_s pd) (dr_alpha d) (pe_t pd) (dr_gamma d) (pe_n pd) in
      match get_e B q (enc_parts ctx K N pd Sv A Cc) (dr_salts d) with
      | None => Ret None
      | Some (e, salt) =>
        match expm rho e N with
        | None => Panic
        | Some re =>
          Ret (Some {| em_salt := salt; em_S := to_be Sv; em_A := to_be A; em_C := to_be Cc;
                       em_z1 := ztok (e * k + dr_alpha d); em_z2 := to_be ((r * re) mod N);
                       em_z3 := ztok (e * dr_mu d + dr_gamma d) |})
        end
      end
    end.

  (** encproof/proof.go 93-178 Verify: [true] is a nil error *)
  Definition enc_verify (ctx : bytes) (K N : Z) (pd : ped) (m : encmsg) : outcome bool :=
    let n := pe_n pd in
    let Sv := of_be (em_S m) in
    if negb (in_range0 Sv n) then Ret false else
    if negb (rel_primeb Sv n) then Ret false else
    let Cc := of_be (em_C m) in
    if negb (in_range0 Cc n) then Ret false else
    if negb (rel_primeb Cc n) then Ret false else
    let z2 := of_be (em_z2 m) in
    if negb (in_range0 z2 N) then Ret false else
    let A := of_be (em_A m) in
    if negb (in_range0 A (N * N)) then Ret false else
    if negb (rel_primeb A N) then Ret false else
    let e := seed_e B (em_salt m) (hash_protos B (em_salt m) (enc_parts ctx K N pd Sv A Cc)) q in
    if negb (in_range e (- q) (1 + q)) then Ret false else
    let! z1 := deref (parse_int 10 (em_z1 m)) in
    if cf_bound q <? Z.abs z1 then Ret false else
    let! Ke := deref (expm K e (N * N)) in
    let! gz := deref (expm (1 + N) z1 (N * N)) in
    let! zN := deref (expm z2 N (N * N)) in
    if negb ((zN * gz) mod (N * N) =? (A * Ke) mod (N * N)) then Ret false else
    let! Se := deref (expm Sv e n) in
    let! sz := deref (expm (pe_s pd) z1 n) in
    let! z3 := deref (parse_int 10 (em_z3 m)) in
    let! tz := deref (expm (pe_t pd) z3 n) in
    Ret ((Cc * Se) mod n =? (sz * tz) mod n).

  Definition log_parts (ctx : bytes) (K N : Z) (pd : ped) (Sv A D : Z) (X Y : point) : list bytes :=
    [ctx; to_be (cf_lae q); to_be N; to_be (pe_n pd); to_be K; to_be Sv; to_be A; to_be D;
     to_be (py (c_g C)); to_be (py X); to_be (py Y)].

  (** logproof/proof.go 27-97 NewKnowExponentAndPaillierEncryption (G is the base point) *)
  Definition log_new (ctx : bytes) (k rho K N : Z) (pd : ped) (X : point) (d : pdraws) : outcome (option logmsg) :=
    match random_coprime N (dr_r d) with
    | None => Ret None
    | Some r =>
      if pe_n pd =? 0 then Panic else
      let! Sv := two_pow (pe_s pd) k (pe_t pd) (dr_mu d) (pe_n pd) in
      let! A := two_pow (1 + N) (dr_alpha d) r N (N * N) in
      let! Y := deref (pt_smul C (c_g C) (dr_alpha d)) in
      let! D := two_pow (pe_s pd) (dr_alpha d) (pe_t pd) (dr_gamma d) (pe_n pd) in
      match get_e B q (log_parts ctx K N pd Sv A D X Y) (dr_salts d) with
      | None => Ret None
      | Some (e, salt) =>
        match expm rho e N with
        | None => Panic
        | Some re =>
          Ret (Some {| lm_salt := salt; lm_S := to_be Sv; lm_A := to_be A; lm_Yx := to_be (px Y); lm_Yy := to_be (py Y);
                       lm_D := to_be D; lm_z1 := ztok (dr_alpha d + e * k); lm_z2 := to_be ((r * re) mod N);
                       lm_z3 := ztok (dr_gamma d + e * dr_mu d) |})
        end
      end
    end.

  (** logproof/proof.go 99-199 Verify *)
  Definition log_verify (ctx : bytes) (K N : Z) (pd : ped) (X : point) (m : logmsg) : outcome bool :=
    let n := pe_n pd in
    let Sv := of_be (lm_S m) in
    if negb (in_range0 Sv n) then Ret false else
    if negb (rel_primeb Sv n) then Ret false else
    let A := of_be (lm_A m) in
    if negb (in_range0 A (N * N)) then Ret false else
    if negb (rel_primeb A N) then Ret false else
    let D := of_be (lm_D m) in
    if negb (in_range0 D n) then Ret false else
    if negb (rel_primeb D n) then Ret false else
    let z2 := of_be (lm_z2 m) in
    if negb (in_range0 z2 N) then Ret false else
    if negb (rel_primeb z2 N) then Ret false else
    match new_point C (of_be (lm_Yx m)) (of_be (lm_Yy m)) with
    | None => Ret false
    | Some Y =>
      let e := seed_e B (lm_salt m) (hash_protos B (lm_salt m) (log_parts ctx K N pd Sv A D X Y)) q in
      if negb (in_range e (- q) (1 + q)) then Ret false else
      let! z1 := deref (parse_int 10 (lm_z1 m)) in
      if cf_bound q <? Z.abs z1 then Ret false else
      let! eX := deref (pt_smul C X e) in
      match pt_add C eX Y with
      | None => Ret false
      | Some YX =>
        let! gz1 := deref (pt_smul C (c_g C) z1) in
        if negb (pt_eqb gz1 YX) then Ret false else
        let! Ke := deref (expm K e (N * N)) in
        let! zN := deref (expm z2 N (N * N)) in
        let! gz := deref (expm (1 + N) z1 (N * N)) in
        if negb ((zN * gz) mod (N * N) =? (A * Ke) mod (N * N)) then Ret false else
        let! sz := deref (expm (pe_s pd) z1 n) in
        let! z3 := deref (parse_int 10 (lm_z3 m)) in
        let! tz := deref (expm (pe_t pd) z3 n) in
        let! De := deref (expm Sv e n) in
        Ret ((sz * tz) mod n =? (D * De) mod n)
      end
    end.
End Proofs.
