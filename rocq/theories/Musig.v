(** Musig.v -- package/github.com/btcsuite/btcd/btcec/v2/schnorr/musig2: keys.go, nonces.go, sign.go.

    Points are elements of the group [E] of Secp256k1.v, scalars numbers modulo N (as in Bip340.v); a comparison with
    infinityPoint is a comparison with the neutral element.  chainhash.TaggedHash is an arbitrary function of the tag and the
    concatenated message.  sort.Sort is an arbitrary function [srt] (the theorems assume that it returns a sorted
    permutation); it sorts in place, so the caller's slice afterwards is the sorted one.  Arrays of fixed size are byte
    strings whose lengths the theorems assume. *)
From Verif Require Import Base BigInt NumTh FieldP AbGroup AbZ WGroup WCurve SecpField SecpFieldThm SecpPrimes Secp256k1 PropSecp Curve Keygen Ckd Bip32 Bip340.
Local Notation N := n256k1.

(** keys.go 18-26, sign.go 17-24, nonces.go 30-37, and chainhash.TagTapTweak: the tags *)
Definition tag_list : bytes := str "KeyAgg list".
Definition tag_coef : bytes := str "KeyAgg coefficient".
Definition tag_blind : bytes := str "MuSig/noncecoef".
Definition tag_tap : bytes := str "TapTweak".
Definition tag_naux : bytes := str "MuSig/aux".
Definition tag_ngen : bytes := str "MuSig/nonce".

(** comparison with infinityPoint *)
Definition is0 (A : E) : bool := (fst (aff A) =? 0) && (snd (aff A) =? 0).
(** SetInt(1), negated if the flag is set *)
Definition unit (b : bool) : Z := if b then (- (1)) mod N else 1.

(** keys.go 151-161 KeyTweakDesc and the tweak options 209-252: at most one of them is in force (sign.go 211-222) *)
Inductive tweak := Tweaks (l : list (bytes * bool)) | Taproot (root : bytes) | Bip86.
(** keys.go 328-338 AggregateKey with the two accumulators that AggregateKeys returns beside it *)
Record agg := Agg { a_pre : E; a_fin : E; a_par : Z; a_acc : Z }.
(** what Sign 205-339 and verifyPartialSig 404-517 compute in the same way *)
Record sess := Sess { s_keys : list E; s_agg : agg; s_b : Z; s_sum : E; s_r : E; s_e : Z }.

Section Musig.
  Variable TH : bytes -> bytes -> bytes.
  Variable srt : list E -> list E.

  (** keys.go 62-70 sortKeys behind the flag *)
  Definition sorted (sort : bool) (keys : list E) : list E := if sort then srt keys else keys.
  (** keys.go 76-91 keyHashFingerprint (of the sorted keys) *)
  Definition fingerprint (keys : list E) : bytes := TH tag_list (concat (map xb keys)).
  (** keys.go 132-149 secondUniqueKeyIndex; None is -1 *)
  Fixpoint find_ne (x : bytes) (keys : list E) (i : nat) : option nat :=
    match keys with
    | [] => None
    | k :: r => if bytes_eqb (xb k) x then find_ne x r (S i) else Some i
    end.
  Definition second_unique (keys : list E) : option nat := match keys with [] => None | k :: _ => find_ne (xb k) keys 0 end.
  (** keys.go 105-128 aggregationCoefficient; the fingerprint has 32 bytes *)
  Definition coef (keys : list E) (A : E) (fp : bytes) (su : option nat) : Z :=
    let h := of_be (TH tag_coef (fp ++ xb A)) mod N in
    match su with Some i => if bytes_eqb (xb (nth i keys ezero)) (xb A) then 1 else h | None => h end.
  (** keys.go 276-325 tweakKey *)
  Definition tweak_key (st : E * Z * Z) (tw : bytes * bool) : option (E * Z * Z) :=
    let '(Q, par, acc) := st in let '(t, xonly) := tw in
    let pf := unit (xonly && odd_y Q) in
    let ti := of_be t in
    if N <=? ti then None else
    let Q' := eadd (zm ti G) (zm pf Q) in
    if is0 Q' then None else Some (Q', (par * pf) mod N, (acc * pf + ti) mod N).
  (** keys.go 441-451: the loop over the tweaks *)
  Fixpoint tweak_all (st : E * Z * Z) (tws : list (bytes * bool)) : option (E * Z * Z) :=
    match tws with
    | [] => Some st
    | t :: r => match tweak_key st t with Some st' => tweak_all st' r | None => None end
    end.
  (** keys.go 225-226: copy into a [32]byte *)
  Definition pad32 (r : bytes) : bytes := firstn 32 (r ++ repeat (zb 0) 32).
  (** keys.go 383-398: the sum *)
  Definition agg_sum (keys : list E) (fp : bytes) (su : option nat) : E :=
    fold_left (fun acc k => eadd acc (zm (coef keys k fp su) k)) keys ezero.
  (** keys.go 427-460: apply the tweaks to the sum *)
  Definition tweaked (Q : E) (tws : list (bytes * bool)) : option agg :=
    match tweak_all (Q, 1, 0) tws with Some (Q', par, acc) => Some (Agg Q Q' par acc) | None => None end.
  (** keys.go 405-432: the taproot tweak; a combined key at infinity is parsed to a nil key, which is dereferenced *)
  Definition taptweak (Q : E) (root : bytes) : outcome (option agg) :=
    match parse_xonly (xb Q) with None => Panic | Some K => Ret (tweaked Q [(TH tag_tap (xb K ++ root), true)]) end.
  Definition agg_of (Q : E) (tw : tweak) : outcome (option agg) :=
    match tw with Tweaks l => Ret (tweaked Q l) | Taproot r => taptweak Q (pad32 r) | Bip86 => taptweak Q [] end.
  (** keys.go 345-460 AggregateKeys (with WithKeysHash and WithUniqueKeyIndex as Sign, verifyPartialSig and Context pass them,
      which is what is computed without them) *)
  Definition agg_keys (keys : list E) (sort : bool) (tw : tweak) : outcome (option agg) :=
    let ks := sorted sort keys in agg_of (agg_sum ks (fingerprint ks) (second_unique ks)) tw.

  (** nonces.go 58-85 secNonceToPubNonce *)
  Definition k_of (b : bytes) : Z := of_be b mod N.
  Definition pub_nonce (sn : bytes) : bytes := cmp (zm (k_of (firstn 32 sn)) G) ++ cmp (zm (k_of (skipn 32 sn)) G).
  (** nonces.go 232-270 genNonceAuxBytes: options (combined key, message, auxiliary input), absent = empty *)
  Definition nonce_pre (rnd key msg aux : bytes) (i : Z) : bytes :=
    rnd ++ be_fixed 1 (Z.of_nat (length key)) ++ key ++ be_fixed 1 (Z.of_nat (length msg)) ++ msg ++ be_fixed 4 (Z.of_nat (length aux)) ++ aux ++ be_fixed 1 i.
  (** nonces.go 274-324 GenNonces with the 32 random bytes given *)
  Definition gen_nonces (rnd sk key msg aux : bytes) : bytes * bytes :=
    let rnd := if (length sk =? 32)%nat then xor sk (TH tag_naux rnd) else rnd in
    let k i := of_be (TH tag_ngen (nonce_pre rnd key msg aux i)) mod N in
    let sn := be_fixed 32 (k 0) ++ be_fixed 32 (k 1) in (pub_nonce sn, sn).
  (** nonces.go 328-389 AggregateNonces *)
  Fixpoint parse_all (l : list bytes) : option (list E) :=
    match l with
    | [] => Some []
    | b :: r => match parse_jac b with None => None | Some A => match parse_all r with None => None | Some As => Some (A :: As) end end
    end.
  Definition sum_points (l : list E) : E := fold_left eadd l ezero.
  Definition agg_nonces (pns : list bytes) : option bytes :=
    match parse_all (map (firstn 33) pns) with
    | None => None
    | Some A => match parse_all (map (skipn 33) pns) with
                | None => None
                | Some B => Some (ser_jac (sum_points A) ++ ser_jac (sum_points B))
                end
    end.

  (** sign.go 205-273, 331-339 (Sign) and 404-464, 481-486, 504-517 (verifyPartialSig) *)
  Definition session (cn : bytes) (keys : list E) (sort : bool) (tw : tweak) (m : bytes) : outcome (option sess) :=
    let! oa := agg_keys keys sort tw in
    Ret match oa with
    | None => None
    | Some a =>
      let b := of_be (TH tag_blind (cn ++ xb (a_fin a) ++ m)) mod N in
      match parse_jac (firstn 33 cn), parse_jac (skipn 33 cn) with
      | Some R1, Some R2 =>
        let S := eadd R1 (zm b R2) in
        let R := if is0 S then G else S in
        Some (Sess (sorted sort keys) a b S R (of_be (TH tag_chal (xb R ++ xb (a_fin a) ++ m)) mod N))
      | _, _ => None
      end
    end.
  (** the coefficient of a key in the session *)
  Definition scoef (c : sess) (A : E) : Z := coef (s_keys c) A (fingerprint (s_keys c)) (second_unique (s_keys c)).
  (** sign.go 385-561 verifyPartialSig *)
  Definition pverify (s : Z) (pn cn : bytes) (keys : list E) (sort : bool) (tw : tweak) (pk m : bytes) : outcome bool :=
    let! oc := session cn keys sort tw m in
    Ret match oc with
    | None => false
    | Some c =>
      match parse_jac (firstn 33 pn), parse_jac (skipn 33 pn) with
      | Some R1, Some R2 =>
        let R := eadd R1 (zm (s_b c) R2) in
        let R := if odd_y (s_r c) then eneg R else R in
        match parse_xonly pk with
        | None => false
        | Some A =>
          let a := scoef c A in
          let f := (unit (odd_y (a_fin (s_agg c))) * a_par (s_agg c)) mod N in
          let B := eadd (zm ((s_e c * a) mod N) (zm f A)) R in
          (fst (aff (zm s G)) =? fst (aff B)) && (snd (aff (zm s G)) =? snd (aff B))
        end
      | _, _ => false
      end
    end.
  (** sign.go 193-366 Sign: the scalar and the nonce point *)
  Definition psign (sn : bytes) (d : Z) (cn : bytes) (keys : list E) (sort : bool) (tw : tweak) (m : bytes) (fast : bool) : outcome (option (Z * E)) :=
    let! oc := session cn keys sort tw m in
    match oc with
    | None => Ret None
    | Some c =>
      let k1 := k_of (firstn 32 sn) in let k2 := k_of (skipn 32 sn) in
      if (k1 =? 0) || (k2 =? 0) then Ret None else
      let k1 := if odd_y (s_r c) then (- k1) mod N else k1 in
      let k2 := if odd_y (s_r c) then (- k2) mod N else k2 in
      if d =? 0 then Ret None else
      let A := zm d G in
      let d' := (d * unit (odd_y (a_fin (s_agg c))) * unit (odd_y A) * a_par (s_agg c)) mod N in
      let s := (k1 + k2 * s_b c + s_e c * scoef c A * d') mod N in
      if fast then Ret (Some (s, s_r c)) else
      let! ok := pverify s (pub_nonce sn) cn keys sort tw (xb A) m in
      Ret (if ok then Some (s, s_r c) else None)
    end.

  (** sign.go 587-642: what the combine options compute (None: no option given); the error of AggregateKeys is dropped and the
      nil key dereferenced *)
  Definition combine_opt (keys : list E) (sort : bool) (tw : tweak) (m : bytes) : outcome (option (E * Z * bytes)) :=
    let! oa := agg_keys keys sort tw in match oa with None => Panic | Some a => Ret (Some (a_fin a, a_acc a, m)) end.
  (** sign.go 646-704 CombineSigs *)
  Definition combine (R : E) (ss : list Z) (o : option (E * Z * bytes)) : Z * Z :=
    let tp := match o with
              | Some (Q, acc, m) => (of_be (TH tag_chal (xb R ++ xb Q ++ m)) mod N * acc * unit (odd_y Q)) mod N
              | None => 0
              end in
    (fst (aff R), (fold_left (fun a s => (a + s) mod N) ss 0 + tp) mod N).

  (** sign.go 67-76 Encode *)
  Definition pencode (s : Z) : bytes := be_fixed 32 s.
  (** sign.go 80-94 Decode: on a short read no error is returned and S stays 0 *)
  Definition pdecode (b : bytes) : option Z :=
    if (length b <? 32)%nat then Some 0 else let v := of_be (firstn 32 b) in if N <=? v then None else Some v.
End Musig.
