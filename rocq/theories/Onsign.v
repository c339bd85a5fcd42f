(** Onsign.v -- eddsacmp/onsign: the signing session and its calls, one function per Go function.

    Not modelled: logging, resetOK/ok[] (never read), BaseParty, ssidNonce, fullBytesLen (always 0).  Random values are
    arguments.  External arithmetic (agl/ed25519/edwards25519, decred edwards) is the record [edlib] plus the curve;
    SHA-512 is [S5], blake2b-256 is [B], HMAC-SHA512 is [HM]. *)
From Verif Require Import Base BigInt HashFrame Text Wire Messages PartyID Curve Json Save Keygen NumTh Paillier RangeProofs Ckd Subset.

(** ** onsign/utils.go *)
(** 38-58 copyBytes on a non-nil slice: left-pad to 32, or take the 32 most significant bytes; 30-36 reverse *)
Definition big_enc (z : Z) : bytes :=
  let b := to_be z in
  rev (firstn 32 (repeat (zb 0) (32 - length b) ++ b)).
(** 24-41 bigIntToEncodedBytes: nil gives zeros *)
Definition big_enc_opt (o : option Z) : bytes := match o with Some z => big_enc z | None => repeat (zb 0) 32 end.
(** 13-22 encodedBytesToBigInt *)
Definition enc_to_big (b : bytes) : Z := of_be (rev b).

(** the Edwards library: field modulus, point negation, point decompression (ExtendedGroupElement.FromBytes) *)
Record edlib := { ed_p : Z; ed_neg : point -> point; ed_dec : bytes -> option point }.

Section Enc.
  Variable D : edlib.
  (** edwards25519.FeFromBytes: the top bit is ignored, the value is taken mod p *)
  Definition fe_of (b : bytes) : Z := (of_le b mod 2 ^ 255) mod ed_p D.
  (** s[31] |= 0x80 / s[31] &^= 0x80 *)
  Definition set_sign (neg : bool) (b : bytes) : bytes :=
    le_fixed 32 (of_le b mod 2 ^ 255 + (if neg then 2 ^ 255 else 0)).
  (** 60-74 ecPointToEncodedBytes; FeIsNegative is the parity of the reduced value *)
  Definition point_enc (P : point) : bytes := set_sign (Z.odd (fe_of (big_enc (px P)))) (big_enc (py P)).
  (** ExtendedGroupElement.ToBytes of a point given by reduced affine coordinates *)
  Definition ge_bytes (P : point) : bytes := le_fixed 32 (py P + (if Z.odd (px P) then 2 ^ 255 else 0)).
End Enc.

(** ** State (local_party.go 28-74) *)
Record sigdata := { sg_sig : bytes; sg_R : bytes; sg_S : bytes; sg_M : bytes }.
Record sparty := {
  sp_i : nat; sp_ids : list party_id; sp_save : save;
  sp_r11 : list bytes; sp_r12 : list bytes; sp_r2 : list bytes; sp_r3 : list bytes;
  sp_out12 : list bytes; sp_out2 : list bytes;
  sp_k : option Z; sp_rho : option Z; sp_K : list (option Z); sp_m : Z;
  sp_si : option bytes; sp_r : option Z; sp_ssid : bytes; sp_number : Z; sp_data : sigdata }.

Definition s_set_ed v p := {| sp_i := sp_i p; sp_ids := sp_ids p; sp_save := set_ed v (sp_save p); sp_r11 := sp_r11 p; sp_r12 := sp_r12 p; sp_r2 := sp_r2 p; sp_r3 := sp_r3 p; sp_out12 := sp_out12 p; sp_out2 := sp_out2 p; sp_k := sp_k p; sp_rho := sp_rho p; sp_K := sp_K p; sp_m := sp_m p; sp_si := sp_si p; sp_r := sp_r p; sp_ssid := sp_ssid p; sp_number := sp_number p; sp_data := sp_data p |}.
Definition s_set_r11 v p := {| sp_i := sp_i p; sp_ids := sp_ids p; sp_save := sp_save p; sp_r11 := v; sp_r12 := sp_r12 p; sp_r2 := sp_r2 p; sp_r3 := sp_r3 p; sp_out12 := sp_out12 p; sp_out2 := sp_out2 p; sp_k := sp_k p; sp_rho := sp_rho p; sp_K := sp_K p; sp_m := sp_m p; sp_si := sp_si p; sp_r := sp_r p; sp_ssid := sp_ssid p; sp_number := sp_number p; sp_data := sp_data p |}.
Definition s_set_r12 v p := {| sp_i := sp_i p; sp_ids := sp_ids p; sp_save := sp_save p; sp_r11 := sp_r11 p; sp_r12 := v; sp_r2 := sp_r2 p; sp_r3 := sp_r3 p; sp_out12 := sp_out12 p; sp_out2 := sp_out2 p; sp_k := sp_k p; sp_rho := sp_rho p; sp_K := sp_K p; sp_m := sp_m p; sp_si := sp_si p; sp_r := sp_r p; sp_ssid := sp_ssid p; sp_number := sp_number p; sp_data := sp_data p |}.
Definition s_set_r2 v p := {| sp_i := sp_i p; sp_ids := sp_ids p; sp_save := sp_save p; sp_r11 := sp_r11 p; sp_r12 := sp_r12 p; sp_r2 := v; sp_r3 := sp_r3 p; sp_out12 := sp_out12 p; sp_out2 := sp_out2 p; sp_k := sp_k p; sp_rho := sp_rho p; sp_K := sp_K p; sp_m := sp_m p; sp_si := sp_si p; sp_r := sp_r p; sp_ssid := sp_ssid p; sp_number := sp_number p; sp_data := sp_data p |}.
Definition s_set_r3 v p := {| sp_i := sp_i p; sp_ids := sp_ids p; sp_save := sp_save p; sp_r11 := sp_r11 p; sp_r12 := sp_r12 p; sp_r2 := sp_r2 p; sp_r3 := v; sp_out12 := sp_out12 p; sp_out2 := sp_out2 p; sp_k := sp_k p; sp_rho := sp_rho p; sp_K := sp_K p; sp_m := sp_m p; sp_si := sp_si p; sp_r := sp_r p; sp_ssid := sp_ssid p; sp_number := sp_number p; sp_data := sp_data p |}.
Definition s_set_out12 v p := {| sp_i := sp_i p; sp_ids := sp_ids p; sp_save := sp_save p; sp_r11 := sp_r11 p; sp_r12 := sp_r12 p; sp_r2 := sp_r2 p; sp_r3 := sp_r3 p; sp_out12 := v; sp_out2 := sp_out2 p; sp_k := sp_k p; sp_rho := sp_rho p; sp_K := sp_K p; sp_m := sp_m p; sp_si := sp_si p; sp_r := sp_r p; sp_ssid := sp_ssid p; sp_number := sp_number p; sp_data := sp_data p |}.
Definition s_set_out2 v p := {| sp_i := sp_i p; sp_ids := sp_ids p; sp_save := sp_save p; sp_r11 := sp_r11 p; sp_r12 := sp_r12 p; sp_r2 := sp_r2 p; sp_r3 := sp_r3 p; sp_out12 := sp_out12 p; sp_out2 := v; sp_k := sp_k p; sp_rho := sp_rho p; sp_K := sp_K p; sp_m := sp_m p; sp_si := sp_si p; sp_r := sp_r p; sp_ssid := sp_ssid p; sp_number := sp_number p; sp_data := sp_data p |}.
Definition s_set_k v p := {| sp_i := sp_i p; sp_ids := sp_ids p; sp_save := sp_save p; sp_r11 := sp_r11 p; sp_r12 := sp_r12 p; sp_r2 := sp_r2 p; sp_r3 := sp_r3 p; sp_out12 := sp_out12 p; sp_out2 := sp_out2 p; sp_k := v; sp_rho := sp_rho p; sp_K := sp_K p; sp_m := sp_m p; sp_si := sp_si p; sp_r := sp_r p; sp_ssid := sp_ssid p; sp_number := sp_number p; sp_data := sp_data p |}.
Definition s_set_rho v p := {| sp_i := sp_i p; sp_ids := sp_ids p; sp_save := sp_save p; sp_r11 := sp_r11 p; sp_r12 := sp_r12 p; sp_r2 := sp_r2 p; sp_r3 := sp_r3 p; sp_out12 := sp_out12 p; sp_out2 := sp_out2 p; sp_k := sp_k p; sp_rho := v; sp_K := sp_K p; sp_m := sp_m p; sp_si := sp_si p; sp_r := sp_r p; sp_ssid := sp_ssid p; sp_number := sp_number p; sp_data := sp_data p |}.
Definition s_set_K v p := {| sp_i := sp_i p; sp_ids := sp_ids p; sp_save := sp_save p; sp_r11 := sp_r11 p; sp_r12 := sp_r12 p; sp_r2 := sp_r2 p; sp_r3 := sp_r3 p; sp_out12 := sp_out12 p; sp_out2 := sp_out2 p; sp_k := sp_k p; sp_rho := sp_rho p; sp_K := v; sp_m := sp_m p; sp_si := sp_si p; sp_r := sp_r p; sp_ssid := sp_ssid p; sp_number := sp_number p; sp_data := sp_data p |}.
Definition s_set_si v p := {| sp_i := sp_i p; sp_ids := sp_ids p; sp_save := sp_save p; sp_r11 := sp_r11 p; sp_r12 := sp_r12 p; sp_r2 := sp_r2 p; sp_r3 := sp_r3 p; sp_out12 := sp_out12 p; sp_out2 := sp_out2 p; sp_k := sp_k p; sp_rho := sp_rho p; sp_K := sp_K p; sp_m := sp_m p; sp_si := v; sp_r := sp_r p; sp_ssid := sp_ssid p; sp_number := sp_number p; sp_data := sp_data p |}.
Definition s_set_r v p := {| sp_i := sp_i p; sp_ids := sp_ids p; sp_save := sp_save p; sp_r11 := sp_r11 p; sp_r12 := sp_r12 p; sp_r2 := sp_r2 p; sp_r3 := sp_r3 p; sp_out12 := sp_out12 p; sp_out2 := sp_out2 p; sp_k := sp_k p; sp_rho := sp_rho p; sp_K := sp_K p; sp_m := sp_m p; sp_si := sp_si p; sp_r := v; sp_ssid := sp_ssid p; sp_number := sp_number p; sp_data := sp_data p |}.
Definition s_set_ssid v p := {| sp_i := sp_i p; sp_ids := sp_ids p; sp_save := sp_save p; sp_r11 := sp_r11 p; sp_r12 := sp_r12 p; sp_r2 := sp_r2 p; sp_r3 := sp_r3 p; sp_out12 := sp_out12 p; sp_out2 := sp_out2 p; sp_k := sp_k p; sp_rho := sp_rho p; sp_K := sp_K p; sp_m := sp_m p; sp_si := sp_si p; sp_r := sp_r p; sp_ssid := v; sp_number := sp_number p; sp_data := sp_data p |}.
Definition s_set_number v p := {| sp_i := sp_i p; sp_ids := sp_ids p; sp_save := sp_save p; sp_r11 := sp_r11 p; sp_r12 := sp_r12 p; sp_r2 := sp_r2 p; sp_r3 := sp_r3 p; sp_out12 := sp_out12 p; sp_out2 := sp_out2 p; sp_k := sp_k p; sp_rho := sp_rho p; sp_K := sp_K p; sp_m := sp_m p; sp_si := sp_si p; sp_r := sp_r p; sp_ssid := sp_ssid p; sp_number := v; sp_data := sp_data p |}.
Definition s_set_data v p := {| sp_i := sp_i p; sp_ids := sp_ids p; sp_save := sp_save p; sp_r11 := sp_r11 p; sp_r12 := sp_r12 p; sp_r2 := sp_r2 p; sp_r3 := sp_r3 p; sp_out12 := sp_out12 p; sp_out2 := sp_out2 p; sp_k := sp_k p; sp_rho := sp_rho p; sp_K := sp_K p; sp_m := sp_m p; sp_si := sp_si p; sp_r := sp_r p; sp_ssid := sp_ssid p; sp_number := sp_number p; sp_data := v |}.

(** ** The refresh payload (local_party.go 163-178) *)
(** hex.DecodeString of Go 1.21 decodes in place, so its result has spare capacity holding the tail of the text, and a
    slice expression may reach into it; [spare text] is what lies between length and capacity (Go 1.21:
    [go121_spare]; a library that allocates exactly: [fun _ => []]). *)
Definition go121_spare (text : bytes) : bytes := skipn (length text / 2) text.
Definition refresh_rec (backing : bytes) (i : nat) : outcome (option (option Z) * option pedpk) :=
  let j := 1376 + 673 * Z.of_nat i in
  let! n := slice backing (j + 33) (j + 289) in
  let! pn := slice backing (j + 289) (j + 417) in
  let! ps := slice backing (j + 417) (j + 545) in
  let! pt := slice backing (j + 545) (j + 673) in
  Ret (Some (Some (of_be n)), Some {| pd_n := Some (of_be pn); pd_s := Some (of_be ps); pd_t := Some (of_be pt) |}).
Fixpoint refresh_recs (backing : bytes) (is : list nat) : outcome (list (option (option Z)) * list (option pedpk)) :=
  match is with
  | [] => Ret ([], [])
  | i :: r => let! (a, b) := refresh_rec backing i in
              let! (x, y) := refresh_recs backing r in Ret (a :: x, b :: y)
  end.

(** random choices of one OnSignRound1Exec *)
Record s1_rand := { s1_k : Z; s1_rho : Z; s1_d : nat -> pdraws }.

Definition sg_ssid : bytes := str "eddsacmp-onsign".   (* local_party.go 262 *)

Section Sign.
  Variable C : curve.
  Variable D : edlib.
  Variables (B S5 : bytes -> bytes).
  Variable HM : bytes -> bytes -> bytes.
  Variable spare : bytes -> bytes.
  Notation n := (c_n C).

  (** local_party.go 146-157: all public shares moved to the child; ChainCodes[i] may be missing or nil (panic) *)
  Fixpoint derive_pubs (ded : point) (cc : list (option Z)) (path : bytes) (l : list (option point)) : outcome (list (option point)) :=
    match l with
    | [] => Ret []
    | x :: r =>
      let! X := deref x in
      match cc with
      | Some c :: cc' => let! Y := derive_pub C HM X ded (to_be c) path in
                         let! ys := derive_pubs ded cc' path r in Ret (Some Y :: ys)
      | _ => Panic
      end
    end.

  (** local_party.go 76-208 NewLocalParty (the registry insertion is in Api.v).  A nil EdDSAPub panics when its
      coordinates are read by the first derivation step (a 5-part path always has a step). *)
  Definition sg_new (partyIndex partyCount : Z) (pids : list bytes) (msg keyData refresh path : bytes) : outcome (res * option sparty) :=
    let! ids := make_ids partyCount pids in
    let! self := idx ids partyIndex in
    match b64_dec keyData with
    | None => Ret (fail EB64, None)
    | Some kb =>
      match save_dec C kb with
      | None => Ret (fail EJson, None)
      | Some keys =>
        if negb (length (split slash path) =? 5)%nat then Ret (fail EPath, None) else
        let cc := match sv_chain keys with Some l => l | None => [] end in
        let! c0 := idx cc partyIndex in
        let! c := deref c0 in
        let! x0 := idx (sv_pub keys) partyIndex in
        let! priv := deref (sv_priv keys) in
        let! X := deref x0 in
        let! ded := deref (sv_ed keys) in
        let! child := derive_priv C HM priv X ded (to_be c) path in
        match child with
        | None => Ret (fail EDerive, None)
        | Some ch =>
          let! pubs := derive_pubs ded cc path (sv_pub keys) in
          match hex_dec refresh with
          | None => Ret (fail EHex, None)
          | Some rf =>
            let count := Z.to_nat partyCount in
            let! (pks, peds) := refresh_recs (rf ++ spare refresh) (seq 0 count) in
            let! (sub, _) := build_subset (set_peds peds (set_pks pks (set_pub pubs (set_priv (Some (of_be ch)) keys)))) ids in
            match sub with
            | inl e => Ret (fail e, None)
            | inr kp =>
              match hex_dec msg with
              | None => Ret (fail EHex, None)
              | Some m =>
                Ret (ok0, Some {| sp_i := Z.to_nat (pid_index self); sp_ids := ids; sp_save := kp;
                  sp_r11 := repeat [] count; sp_r12 := repeat [] count; sp_r2 := repeat [] count; sp_r3 := repeat [] count;
                  sp_out12 := repeat [] count; sp_out2 := repeat [] count;
                  sp_k := None; sp_rho := None; sp_K := repeat None count; sp_m := of_be m;
                  sp_si := None; sp_r := None; sp_ssid := []; sp_number := 0;
                  sp_data := {| sg_sig := []; sg_R := []; sg_S := []; sg_M := [] |} |})
              end
            end
          end
        end
      end
    end.

  (** PaillierPKs[j].N and RingPedersenPKs[j] (fields of a present Pedersen key are never nil after NewLocalParty; a nil
      one would panic when used) *)
  Definition get_N (p : sparty) (j : nat) : outcome Z :=
    let! o := idx (sv_pks (sp_save p)) (Z.of_nat j) in let! o := deref o in deref o.
  Definition get_ped (p : sparty) (j : nat) : outcome ped :=
    let! o := idx (sv_peds (sp_save p)) (Z.of_nat j) in
    let! d := deref o in
    let! a := deref (pd_n d) in let! b := deref (pd_s d) in let! c := deref (pd_t d) in
    Ret {| pe_n := a; pe_s := b; pe_t := c |}.
  (** append(ssid, big.NewInt(j).Bytes()...): round_1.go 93, round_2.go 70 and 90, round_3.go 69 *)
  Definition sctx (ssid : bytes) (j : nat) : bytes := ssid ++ to_be (Z.of_nat j).

  (** round_1.go 96-126: one range proof per party, own copy stored *)
  Fixpoint s1_loop (js : list nat) (k rho K N : Z) (d : nat -> pdraws) (p : sparty) : outcome (option gerr * sparty) :=
    match js with
    | [] => Ret (None, p)
    | j :: js =>
      let! pd := get_ped p j in
      let! o := enc_new C B (sctx (sp_ssid p) (sp_i p)) K N k rho pd (d j) in
      match o with
      | None => Ret (Some (EEncProof j), p)
      | Some m =>
        let w := wire_bytes (CS12 (encmsg_enc m)) in
        let! out := store (sp_out12 p) (Z.of_nat j) w in
        let p := s_set_out12 out p in
        if (j =? sp_i p)%nat then
          let! own := store (sp_r12 p) (Z.of_nat (sp_i p)) w in s1_loop js k rho K N d (s_set_r12 own p)
        else s1_loop js k rho K N d p
      end
    end.
  (** round_1.go 37-131 OnSignRound1Exec *)
  Definition sg_r1_exec (r : s1_rand) (p : sparty) : outcome (res * sparty) :=
    let p := s_set_ssid sg_ssid (s_set_number 1 p) in
    let! s := sum_pub C (sv_pub (sp_save p)) in
    match s with
    | inl e => Ret (fail e, p)
    | inr y =>
      let p := s_set_k (Some (s1_k r)) (s_set_ed (Some y) p) in
      let! N := get_N p (sp_i p) in
      match pal_encrypt N (s1_k r) (s1_rho r) with
      | None => Ret (fail EEncrypt, p)
      | Some K =>
        let! Ks := store (sp_K p) (Z.of_nat (sp_i p)) (Some K) in
        let p := s_set_K Ks (s_set_rho (Some (s1_rho r)) p) in
        let w := wire_bytes (CS11 (to_be K)) in
        let! r11 := store (sp_r11 p) (Z.of_nat (sp_i p)) w in
        let p := s_set_r11 r11 p in
        let! (e, p) := s1_loop (seq 0 (length (sp_ids p))) (s1_k r) (s1_rho r) K N (s1_d r) p in
        match e with
        | Some e => Ret (fail e, p)
        | None => Ret (okd w, p)
        end
      end
    end.

  (** round_1.go 133-143 GetRound1Msg2, round_2.go 127-137 GetRound2Msg *)
  Definition sg_get1 (to : Z) (p : sparty) : outcome (res * sparty) := let! w := idx (sp_out12 p) to in Ret (okd w, p).
  Definition sg_get2 (to : Z) (p : sparty) : outcome (res * sparty) := let! w := idx (sp_out2 p) to in Ret (okd w, p).

  (** round_1.go 145-178 OnSignRound1MsgAccept: the slot is written only after the type check *)
  Definition sg_accept1 (from : Z) (msg : bytes) (p : sparty) : outcome (res * sparty) :=
    match b64_dec msg with
    | None => Ret (fail EB64, p)
    | Some w =>
      match parse_wire w with
      | None => Ret (fail EParse, p)
      | Some (CS11 _) => let! l := store (sp_r11 p) from w in Ret (ok0, s_set_r11 l p)
      | Some (CS12 _) => let! l := store (sp_r12 p) from w in Ret (ok0, s_set_r12 l p)
      | Some _ => Ret (fail EType, p)
      end
    end.
  (** round_2.go 139-169 OnSignRound2MsgAccept, round_3.go 133-163 OnSignRound3MsgAccept: stored before parsing *)
  Definition sg_accept2 (from : Z) (msg : bytes) (p : sparty) : outcome (res * sparty) :=
    match b64_dec msg with
    | None => Ret (fail EB64, p)
    | Some w =>
      let! l := store (sp_r2 p) from w in
      let p := s_set_r2 l p in
      match parse_wire w with
      | None => Ret (fail EParse, p)
      | Some (CS2 _ _ _) => Ret (ok0, p)
      | Some _ => Ret (fail EType, p)
      end
    end.
  Definition sg_accept3 (from : Z) (msg : bytes) (p : sparty) : outcome (res * sparty) :=
    match b64_dec msg with
    | None => Ret (fail EB64, p)
    | Some w =>
      let! l := store (sp_r3 p) from w in
      let p := s_set_r3 l p in
      match parse_wire w with
      | None => Ret (fail EParse, p)
      | Some (CS3 _) => Ret (ok0, p)
      | Some _ => Ret (fail EType, p)
      end
    end.
  (** round_1.go 180-201 OnSignRound1Finish: the loop over the r1m2 slots; r1m1 has the same length *)
  Fixpoint s1_missing (j : nat) (l1 l2 : list bytes) : outcome (option nat) :=
    match l2 with
    | [] => Ret None
    | b :: r2 => match l1 with
                 | [] => Panic
                 | a :: r1 => match a, b with
                              | [], _ | _, [] => Ret (Some j)
                              | _, _ => s1_missing (S j) r1 r2
                              end
                 end
    end.
  Definition sg_finish1 (p : sparty) : outcome (res * sparty) :=
    let! o := s1_missing 0 (sp_r11 p) (sp_r12 p) in
    Ret (match o with Some j => fail (EMissing j) | None => ok0 end, p).
  (** round_2.go 171-187, round_3.go 165-181 *)
  Definition sg_finish2 (p : sparty) : outcome (res * sparty) :=
    Ret (match first_missing None 0 (sp_r2 p) with Some j => fail (EMissing j) | None => ok0 end, p).
  Definition sg_finish3 (p : sparty) : outcome (res * sparty) :=
    Ret (match first_missing None 0 (sp_r3 p) with Some j => fail (EMissing j) | None => ok0 end, p).

  (** round_2.go 35-80: one peer's range proof *)
  Definition s2_one (j : nat) (p : sparty) : outcome (option gerr * sparty) :=
    match parse_wire (nth j (sp_r11 p) []) with
    | None => Ret (Some EParse, p)
    | Some (CS11 kb) =>
      let! Ks := store (sp_K p) (Z.of_nat j) (Some (of_be kb)) in
      let p := s_set_K Ks p in
      let! w2 := idx (sp_r12 p) (Z.of_nat j) in
      match parse_wire w2 with
      | None => Ret (Some EParse, p)
      | Some (CS12 eb) =>
        match encmsg_dec eb with
        | None => Ret (Some (EEncProof j), p)
        | Some m =>
          let! N := get_N p j in
          let! pd := get_ped p (sp_i p) in
          let! ok := enc_verify C B (sctx (sp_ssid p) j) (of_be kb) N pd m in
          Ret (if ok then None else Some (EEncProof j), p)
        end
      | Some _ => Panic
      end
    | Some _ => Panic
    end.
  Fixpoint s2_verify (js : list nat) (p : sparty) : outcome (option gerr * sparty) :=
    match js with
    | [] => Ret (None, p)
    | j :: js =>
      if (j =? sp_i p)%nat then s2_verify js p
      else let! (e, p') := s2_one j p in
           match e with Some e => Ret (Some e, p') | None => s2_verify js p' end
    end.
  (** logproof.New with possibly-nil rho / kCiphertexts[i]: they are first touched after r has been drawn *)
  Definition log_new_opt (ctx : bytes) (k : Z) (rho K : option Z) (N : Z) (pd : ped) (X : point) (d : pdraws) : outcome (option logmsg) :=
    match rho, K with
    | Some rho, Some K => log_new C B ctx k rho K N pd X d
    | _, _ => match random_coprime N (dr_r d) with None => Ret None | Some _ => Panic end
    end.
  (** round_2.go 93-121: one discrete-log proof per party, self-checked, own copy stored *)
  Fixpoint s2_loop (js : list nat) (k : Z) (Ri : point) (N : Z) (d : nat -> pdraws) (p : sparty) : outcome (option gerr * sparty) :=
    match js with
    | [] => Ret (None, p)
    | j :: js =>
      let ctx := sctx (sp_ssid p) (sp_i p) in
      let! pd := get_ped p j in
      let! K := idx (sp_K p) (Z.of_nat (sp_i p)) in
      let! o := log_new_opt ctx k (sp_rho p) K N pd Ri (d j) in
      match o with
      | None => Ret (Some (ELogProof j), p)
      | Some m =>
        let! K := deref K in
        let! ok := log_verify C B ctx K N pd Ri m in
        if negb ok then Ret (Some (ELogProof j), p) else
        let w := wire_bytes (CS2 (to_be (px Ri)) (to_be (py Ri)) (logmsg_enc m)) in
        let! out := store (sp_out2 p) (Z.of_nat j) w in
        let p := s_set_out2 out p in
        if (j =? sp_i p)%nat then
          let! own := store (sp_r2 p) (Z.of_nat (sp_i p)) w in s2_loop js k Ri N d (s_set_r2 own p)
        else s2_loop js k Ri N d p
      end
    end.
  (** round_2.go 21-125 OnsignRound2Exec *)
  Definition sg_r2_exec (d : nat -> pdraws) (p : sparty) : outcome (res * sparty) :=
    let p := s_set_number 2 p in
    let! (e, p) := s2_verify (seq 0 (length (sp_r11 p))) p in
    match e with
    | Some e => Ret (fail e, p)
    | None =>
      let! k := deref (sp_k p) in
      let! Ri := deref (base_mul C k) in
      let! N := get_N p (sp_i p) in
      let! (e, p) := s2_loop (seq 0 (length (sp_ids p))) k Ri N d p in
      match e with
      | Some e => Ret (fail e, p)
      | None => Ret (ok0, p)
      end
    end.

  (** *** round 3 *)
  (** edwards25519.ScReduce / ScMulAdd on little-endian byte strings *)
  Definition sc_reduce (b : bytes) : bytes := le_fixed 32 (of_le b mod n).
  Definition sc_muladd (a b c : bytes) : bytes := le_fixed 32 ((of_le a * of_le b + of_le c) mod n).
  (** an ExtendedGroupElement: an affine point, or [None] for the all-zero (degenerate) coordinates that arise when
      the random Z drawn by ecPointToExtendedElement is 0 (utils.go 93-119); they absorb every addition *)
  Definition ext_add (R : option point) (z : Z) (P : point) : option point :=
    match R with
    | None => None
    | Some Q => if z mod ed_p D =? 0 then None else Some (c_add C Q P)
    end.
  Definition ext_bytes (R : option point) : bytes :=
    match R with Some P => ge_bytes P | None => repeat (zb 0) 32 end.
  Definition inv8 : Z := match invm 8 n with Some v => v | None => 0 end.

  (** round_3.go 47-93: one peer's nonce point.  Simplification: a nil kCiphertexts[j] (round 2 not run) always panics
      (Go: unless one of the earlier range checks of Verify fails first). *)
  Definition s3_one (j : nat) (z : Z) (R : option point) (p : sparty) : outcome (gerr + option point) :=
    match parse_wire (nth j (sp_r2 p) []) with
    | None => Ret (inl EParse)
    | Some (CS2 rx ry lb) =>
      match logmsg_dec lb with
      | None => Ret (inl (ELogProof j))
      | Some m =>
        match new_point C (of_be rx) (of_be ry) with
        | None => Ret (inl (EPoint j))
        | Some Rj =>
          let! Ko := idx (sp_K p) (Z.of_nat j) in
          let! K := deref Ko in
          let! N := get_N p j in
          let! pd := get_ped p (sp_i p) in
          let! ok := log_verify C B (sctx (sp_ssid p) j) K N pd Rj m in
          if negb ok then Ret (inl (ELogProof j)) else
          let! Rj := eight_inv_eight C inv8 Rj in
          Ret (inr (ext_add R z Rj))
        end
      end
    | Some _ => Panic
    end.
  Fixpoint s3_loop (js : list nat) (z : nat -> Z) (R : option point) (p : sparty) : outcome (gerr + option point) :=
    match js with
    | [] => Ret (inr R)
    | j :: js =>
      if (j =? sp_i p)%nat then s3_loop js z R p
      else let! o := s3_one j (z j) R p in
           match o with inl e => Ret (inl e) | inr R' => s3_loop js z R' p end
    end.
  (** round_3.go 21-131 OnsignRound3Exec; z j is the random Z used when adding R_j *)
  Definition sg_r3_exec (z : nat -> Z) (p : sparty) : outcome (res * sparty) :=
    let p := s_set_number 3 p in
    let ri := big_enc_opt (sp_k p) in
    let! o := s3_loop (seq 0 (length (sp_r2 p))) z (Some (c_smul C (c_g C) (of_le ri))) p in
    match o with
    | inl e => Ret (fail e, p)
    | inr R =>
      let encR := ext_bytes R in
      let! A := deref (sv_ed (sp_save p)) in
      let lam := sc_reduce (S5 (encR ++ point_enc D A ++ to_be (sp_m p))) in
      let s := sc_muladd lam (big_enc_opt (sv_priv (sp_save p))) ri in
      let p := s_set_r (Some (enc_to_big encR)) (s_set_si (Some s) p) in
      let w := wire_bytes (CS3 (to_be (enc_to_big s))) in
      let! r3 := store (sp_r3 p) (Z.of_nat (sp_i p)) w in
      Ret (okd w, s_set_r3 r3 p)
    end.

  (** *** final *)
  (** decred edwards.Verify -> agl ed25519.Verify (external): pub.Serialize, sig = enc(r) || enc(s) *)
  Definition ed_verify (A : point) (M : bytes) (r s : Z) : bool :=
    let pub := point_enc D A in
    let rb := big_enc r in let sb := big_enc s in
    if negb (Z.land (bz (nth 31 sb (zb 0))) 224 =? 0) then false else
    match ed_dec D pub with
    | None => false
    | Some A' =>
      let h := of_le (S5 (rb ++ pub ++ M)) mod n in
      bytes_eqb (ge_bytes (c_add C (c_smul C (ed_neg D A') h) (c_smul C (c_g C) (of_le sb)))) rb
    end.

  (** round_final.go 42-60 *)
  Fixpoint sf_loop (js : list nat) (acc : option bytes) (p : sparty) : outcome (gerr + option bytes) :=
    match js with
    | [] => Ret (inr acc)
    | j :: js =>
      if (j =? sp_i p)%nat then sf_loop js acc p
      else let! w := idx (sp_r3 p) (Z.of_nat j) in
           match parse_wire w with
           | None => Ret (inl EParse)
           | Some (CS3 sb) => let! a := deref acc in
                              sf_loop js (Some (sc_muladd a (big_enc 1) (big_enc (of_be sb)))) p
           | Some _ => Panic
           end
    end.
  (** encoding/json of common.SignatureData (signature.pb.go 30-43): empty byte fields are omitted *)
  Definition jbytes (name : string) (b : bytes) : list (bytes * json) :=
    match b with [] => [] | _ => [(str name, JStr (b64_enc b))] end.
  Definition sig_json (d : sigdata) : bytes :=
    jenc (JObj (jbytes "signature" (sg_sig d) ++ jbytes "r" (sg_R d) ++ jbytes "s" (sg_S d) ++ jbytes "m" (sg_M d))).
  (** round_final.go 23-98 OnsignFinalExec *)
  Definition sg_final (p : sparty) : outcome (res * sparty) :=
    let p := s_set_number 4 p in
    let! o := sf_loop (seq 0 (length (sp_ids p))) (sp_si p) p in
    match o with
    | inl e => Ret (fail e, p)
    | inr acc =>
      let! sum := deref acc in
      let s := enc_to_big sum in
      let! r := deref (sp_r p) in
      let d := {| sg_sig := big_enc r ++ sum; sg_R := to_be r; sg_S := to_be s; sg_M := to_be (sp_m p) |} in
      let p := s_set_data d p in
      let! A := deref (sv_ed (sp_save p)) in
      if ed_verify A (sg_M d) r s then Ret (okd (sig_json d), p) else Ret (fail EVerify, p)
    end.
End Sign.
