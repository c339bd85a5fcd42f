(** Der2.v -- package/github.com/btcsuite/btcd/btcec/v2/ecdsa/signature.go 39-212: the signature parsers of the second btcec version,
    which read r and s into fixed-width scalars (C67).  The serialiser, Sign, SignCompact and RecoverCompact of that version are
    direct calls into the external decred library and are not modelled; ModNScalar.SetByteSlice is modelled by what it documents. *)
From Verif Require Import Base BigInt NumTh SecpPrimes Ecdsa PropDer.
Local Notation N := n256k1.

(** 101-103, 155-157: leading zeroes are stripped *)
Fixpoint strip (b : bytes) : bytes := match b with c :: r => if bz c =? 0 then strip r else b | [] => [] end.
(** decred secp256k1 v4 modnscalar.go SetByteSlice: at most 32 bytes are used (the first 32 of a longer slice), the value is
    reduced and the overflow reported *)
Definition set_byte_slice (b : bytes) : Z * bool := let v := of_be (firstn 32 b) in (v mod N, N <=? v).
(** 100-120 and 154-174: one integer, [None] where the code returns an error *)
Definition scalar_of (b : bytes) : option Z :=
  let b := strip b in
  if 32 <? Z.of_nat (length b) then None else
  let (v, o) := set_byte_slice b in
  if o then None else if v =? 0 then None else Some v.
(** 61-182 parseSig *)
Definition parse_sig2 (s : bytes) (der : bool) : outcome (option (Z * Z)) :=
  if Z.of_nat (length s) <? 8 then Ret None else
  let! h := idx s 0 in
  if negb (bz h =? 48) then Ret None else
  let! sl := idx s 1 in
  let total := (bz sl + 2) mod 256 in
  if (Z.of_nat (length s) <? total) || (total <? 8) then Ret None else
  let! s := slice s 0 total in
  let! m := idx s 2 in
  if negb (bz m =? 2) then Ret None else
  let! rl := idx s 3 in
  let rlen := bz rl in
  if (rlen <=? 0) || (Z.of_nat (length s) - 4 - 3 <? rlen) then Ret None else
  let! rb := slice s 4 (4 + rlen) in
  let! rc := if der then canonical_padding rb else Ret true in
  if negb rc then Ret None else
  match scalar_of rb with
  | None => Ret None
  | Some r =>
    let i := 4 + rlen in
    let! m2 := idx s i in
    if negb (bz m2 =? 2) then Ret None else
    let! sl2 := idx s (i + 1) in
    let slen := bz sl2 in
    if (slen <=? 0) || (Z.of_nat (length s) - (i + 2) <? slen) then Ret None else
    let! sb := slice s (i + 2) (i + 2 + slen) in
    let! sc := if der then canonical_padding sb else Ret true in
    if negb sc then Ret None else
    match scalar_of sb with
    | None => Ret None
    | Some v => if negb (i + 2 + slen =? Z.of_nat (length s)) then Ret None else Ret (Some (r, v))
    end
  end.

Lemma strip_val b : of_be (strip b) = of_be b.
Proof.
  induction b as [|c b IH]; [reflexivity|]. cbn [strip]. destruct (Z.eqb_spec (bz c) 0) as [E|]; [|reflexivity]. rewrite IH.
  replace c with (zb 0) by (rewrite <- E; apply zb_bz). reflexivity.
Qed.
Lemma strip_len b : (32 < length (strip b))%nat -> 256 ^ 32 <= of_be b.
Proof.
  intro L. rewrite <- strip_val. assert (H : match strip b with [] => True | c :: _ => bz c <> 0 end).
  { clear L. induction b as [|c b IH]; [exact I|]. cbn [strip]. destruct (Z.eqb_spec (bz c) 0); [exact IH|assumption]. }
  destruct (strip b) as [|c t]; [cbn in L; lia|]. cbn [length] in L. pose proof (bz_range c).
  rewrite (of_be_app [c] t : of_be (c :: t) = _). pose proof (of_be_range t) as [R _].
  assert (256 ^ 32 <= 256 ^ Z.of_nat (length t)) by (apply Z.pow_le_mono_r; lia).
  assert (E1 : of_be [c] = bz c) by (cbn; lia). rewrite E1. nia.
Qed.
Lemma scalar_of_ok b : scalar_of b = if (0 <? of_be b) && (of_be b <? N) then Some (of_be b) else None.
Proof.
  unfold scalar_of, set_byte_slice. pose proof n_pow as NP. pose proof (of_be_range b) as [R0 _]. pose proof (strip_val b) as SV.
  destruct (Z.ltb_spec 32 (Z.of_nat (length (strip b)))) as [L|L].
  - pose proof (strip_len b ltac:(lia)). replace (of_be b <? N) with false by lia. rewrite andb_false_r. reflexivity.
  - rewrite firstn_all2 by lia. rewrite SV. destruct (Z.leb_spec N (of_be b)) as [O|O].
    + replace (of_be b <? N) with false by lia. rewrite andb_false_r. reflexivity.
    + rewrite Z.mod_small by lia. replace (of_be b <? N) with true by lia. destruct (Z.eqb_spec (of_be b) 0) as [->|Z0]; [reflexivity|].
      replace (0 <? of_be b) with true by lia. reflexivity.
Qed.
(** the two versions accept the same strings with the same results, in both modes *)
Theorem C67_same_as_v1 s der : parse_sig2 s der = parse_sig s der.
Proof.
  destruct (C61_parse_total s der) as [o E]. rewrite E. revert E. unfold parse_sig, parse_sig2.
  destruct (Z.of_nat (length s) <? 8); [exact (fun H => H)|]. destruct (idx s 0) as [h|]; cbn [obind]; [|discriminate].
  destruct (negb (bz h =? 48)); [exact (fun H => H)|]. destruct (idx s 1) as [sl|]; cbn [obind]; [|discriminate]. cbv zeta.
  destruct ((Z.of_nat (length s) <? _) || _); [exact (fun H => H)|]. destruct (slice s 0 _) as [t|]; cbn [obind]; [|discriminate]. clear s.
  destruct (idx t 2) as [m|]; cbn [obind]; [|discriminate]. destruct (negb (bz m =? 2)); [exact (fun H => H)|]. destruct (idx t 3) as [rl|]; cbn [obind]; [|discriminate].
  destruct ((bz rl <=? 0) || _); [exact (fun H => H)|]. destruct (slice t 4 _) as [rb|]; cbn [obind]; [|discriminate].
  destruct (if der then canonical_padding rb else Ret true) as [rc|]; cbn [obind]; [|discriminate]. destruct (negb rc); [exact (fun H => H)|].
  rewrite (scalar_of_ok rb). set (i := 4 + bz rl). 
  destruct (idx t i) as [m2|]; cbn [obind]; [|discriminate]. destruct (negb (bz m2 =? 2)). { destruct (_ && _); exact (fun H => H). }
  destruct (idx t (i + 1)) as [sl2|]; cbn [obind]; [|discriminate]. destruct ((bz sl2 <=? 0) || _). { destruct (_ && _); exact (fun H => H). }
  destruct (slice t (i + 2) _) as [sb|]; cbn [obind]; [|discriminate].
  destruct (if der then canonical_padding sb else Ret true) as [sc|]; cbn [obind]; [|discriminate]. destruct (negb sc). { destruct (_ && _); exact (fun H => H). }
  rewrite (scalar_of_ok sb). rewrite !sgn_one. destruct (negb (_ =? Z.of_nat (length t))). { destruct ((0 <? of_be rb) && _); [destruct ((0 <? of_be sb) && _)|]; exact (fun H => H). }
  destruct (Z.leb_spec (of_be rb) 0). { replace (0 <? of_be rb) with false by lia. exact (fun H => H). }
  replace (0 <? of_be rb) with true by lia. cbn [andb].
  destruct (Z.leb_spec (of_be sb) 0). { replace (0 <? of_be sb) with false by lia. destruct (of_be rb <? N); exact (fun H => H). }
  replace (0 <? of_be sb) with true by lia. cbn [andb].
  destruct (Z.leb_spec N (of_be rb)). { replace (of_be rb <? N) with false by lia. exact (fun H => H). }
  replace (of_be rb <? N) with true by lia.
  destruct (Z.leb_spec N (of_be sb)). { replace (of_be sb <? N) with false by lia. exact (fun H => H). }
  replace (of_be sb <? N) with true by lia. exact (fun H => H).
Qed.
(** so the acceptance theorems carry over: neither parser panics, and both are exact *)
Theorem C67_parse_total s der : exists o, parse_sig2 s der = Ret o.
Proof. rewrite C67_same_as_v1. apply C61_parse_total. Qed.
Theorem C67_parse_ber s r v : parse_sig2 s false = Ret (Some (r, v)) <-> exists rb sb tail,
  s = two_ints rb sb ++ tail /\ rb <> [] /\ sb <> [] /\ 4 + Z.of_nat (length rb) + Z.of_nat (length sb) <= 253 /\ of_be rb = r /\ of_be sb = v /\ in_range r /\ in_range v.
Proof. rewrite C67_same_as_v1. apply C61_parse_ber. Qed.
Theorem C67_parse_der s r v : parse_sig2 s true = Ret (Some (r, v)) <->
  in_range r /\ in_range v /\ exists tail, s = two_ints (canonicalize_int r) (canonicalize_int v) ++ tail.
Proof. rewrite C67_same_as_v1. apply C61_parse_der. Qed.
(** an integer of 33 bytes after its zeroes, the order itself, and zero are refused; forty leading zeroes are not (BER) *)
Theorem C67_example :
  scalar_of (zb 1 :: repeat (zb 0) 32) = None /\ scalar_of (be_fixed 32 N) = None /\ scalar_of [zb 0; zb 0] = None /\ scalar_of (repeat (zb 0) 40 ++ [zb 7]) = Some 7 /\
  parse_sig2 (map zb [48; 6; 2; 1; 1; 2; 1; 2; 9]) true = Ret (Some (1, 2)) /\ parse_sig2 (map zb [48; 6; 2; 1; 129; 2; 1; 2]) true = Ret None.
Proof. repeat (split; [vm_compute; reflexivity|]). vm_compute; reflexivity. Qed.
