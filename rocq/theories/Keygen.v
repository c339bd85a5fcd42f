(** Keygen.v -- eddsacmp/keygen: the party state and the round functions, one call = one function.

    Logging, the unused fields ssidNonce, srids, ok[] (only reset, never read) and BaseParty are not
    modelled.  Random values are arguments.  A Go panic is [Panic]; because a panic ends the process the
    partially updated state is not kept. *)
From Verif Require Import Base BigInt HashFrame Text Wire Messages PartyID Curve Schnorr Json Save.

(** Error returns.  The text is not modelled; the constructor says which check failed, with the party
    index the text names where there is one. *)
Inductive gerr :=
| ENotFound            (* "party not found: key" / "not SignRound1Message2" for OnSignRound2Finish *)
| EB64                 (* base64 decode fail *)
| EParse               (* parse wire msg fail *)
| EType                (* wrong message type *)
| EMissing (j : nat)   (* "msg is null: j" *)
| EHex                 (* hex decode *)
| ECount               (* wrong number of chain codes *)
| EChain (j : nat)     (* a chain code does not parse *)
| EPayload             (* unmarshal r2msg payload err *)
| EPubXj               (* unmarshal r2msg pubxj err *)
| ESsid (j : nat)      (* payload.ssid != round.temp.ssid *)
| EHash (j : nat)      (* hash != V *)
| ESchnorr (j : nat)   (* schnorr proof verify failed *)
| ESum (j : nat)       (* calc pubkey failed *)
| EJson                (* unmarshal keygen save data err *)
| EPath                (* wallet path err *)
| EDerive              (* child key derivation error *)
| ESigner              (* unable to find a signer party in the local save data *)
| EEncrypt             (* Paillier encryption error *)
| EEncProof (j : nat)  (* range proof creation / unmarshal / verification failure *)
| ELogProof (j : nat)
| EPoint (j : nat)     (* invalid point *)
| EVerify.             (* final signature verify failed *)

(** KeygenExecResult / KeygenResult (round_1.go 20-29): data is empty for results without MsgWireBytes.
    Ok=false iff Err is set. *)
Record res := { r_err : option gerr; r_data : bytes }.
Definition r_ok (r : res) : bool := match r_err r with None => true | Some _ => false end.
Definition ok0 : res := {| r_err := None; r_data := [] |}.
Definition okd (b : bytes) : res := {| r_err := None; r_data := b |}.
Definition fail (e : gerr) : res := {| r_err := Some e; r_data := [] |}.

(** message/messages.go 97-105 *)
Record payload := { pl_A : point; pl_ssid : bytes; pl_srid : bytes; pl_u : bytes }.

(** local_party.go 28-62 *)
Record kparty := {
  kp_i : nat; kp_ids : list party_id; kp_save : save;
  kp_tau : option Z; kp_A : option point; kp_srid : bytes; kp_u : bytes;
  kp_payload : list (option payload); kp_ssid : bytes; kp_V : list bytes;
  kp_r1 : list bytes; kp_r2 : list bytes; kp_r3 : list bytes; kp_number : Z }.

Definition k_set_save v p := {| kp_i := kp_i p; kp_ids := kp_ids p; kp_save := v; kp_tau := kp_tau p; kp_A := kp_A p; kp_srid := kp_srid p; kp_u := kp_u p; kp_payload := kp_payload p; kp_ssid := kp_ssid p; kp_V := kp_V p; kp_r1 := kp_r1 p; kp_r2 := kp_r2 p; kp_r3 := kp_r3 p; kp_number := kp_number p |}.
Definition k_set_srid v p := {| kp_i := kp_i p; kp_ids := kp_ids p; kp_save := kp_save p; kp_tau := kp_tau p; kp_A := kp_A p; kp_srid := v; kp_u := kp_u p; kp_payload := kp_payload p; kp_ssid := kp_ssid p; kp_V := kp_V p; kp_r1 := kp_r1 p; kp_r2 := kp_r2 p; kp_r3 := kp_r3 p; kp_number := kp_number p |}.
Definition k_set_payload v p := {| kp_i := kp_i p; kp_ids := kp_ids p; kp_save := kp_save p; kp_tau := kp_tau p; kp_A := kp_A p; kp_srid := kp_srid p; kp_u := kp_u p; kp_payload := v; kp_ssid := kp_ssid p; kp_V := kp_V p; kp_r1 := kp_r1 p; kp_r2 := kp_r2 p; kp_r3 := kp_r3 p; kp_number := kp_number p |}.
Definition k_set_V v p := {| kp_i := kp_i p; kp_ids := kp_ids p; kp_save := kp_save p; kp_tau := kp_tau p; kp_A := kp_A p; kp_srid := kp_srid p; kp_u := kp_u p; kp_payload := kp_payload p; kp_ssid := kp_ssid p; kp_V := v; kp_r1 := kp_r1 p; kp_r2 := kp_r2 p; kp_r3 := kp_r3 p; kp_number := kp_number p |}.
Definition k_set_r1 v p := {| kp_i := kp_i p; kp_ids := kp_ids p; kp_save := kp_save p; kp_tau := kp_tau p; kp_A := kp_A p; kp_srid := kp_srid p; kp_u := kp_u p; kp_payload := kp_payload p; kp_ssid := kp_ssid p; kp_V := kp_V p; kp_r1 := v; kp_r2 := kp_r2 p; kp_r3 := kp_r3 p; kp_number := kp_number p |}.
Definition k_set_r2 v p := {| kp_i := kp_i p; kp_ids := kp_ids p; kp_save := kp_save p; kp_tau := kp_tau p; kp_A := kp_A p; kp_srid := kp_srid p; kp_u := kp_u p; kp_payload := kp_payload p; kp_ssid := kp_ssid p; kp_V := kp_V p; kp_r1 := kp_r1 p; kp_r2 := v; kp_r3 := kp_r3 p; kp_number := kp_number p |}.
Definition k_set_r3 v p := {| kp_i := kp_i p; kp_ids := kp_ids p; kp_save := kp_save p; kp_tau := kp_tau p; kp_A := kp_A p; kp_srid := kp_srid p; kp_u := kp_u p; kp_payload := kp_payload p; kp_ssid := kp_ssid p; kp_V := kp_V p; kp_r1 := kp_r1 p; kp_r2 := kp_r2 p; kp_r3 := v; kp_number := kp_number p |}.
Definition k_set_number v p := {| kp_i := kp_i p; kp_ids := kp_ids p; kp_save := kp_save p; kp_tau := kp_tau p; kp_A := kp_A p; kp_srid := kp_srid p; kp_u := kp_u p; kp_payload := kp_payload p; kp_ssid := kp_ssid p; kp_V := kp_V p; kp_r1 := kp_r1 p; kp_r2 := kp_r2 p; kp_r3 := kp_r3 p; kp_number := v |}.

(** crypto/alice/utils/utils.go 302-315 Xor *)
Definition bxor (a b : byte) : byte := zb (Z.lxor (bz a) (bz b)).
Fixpoint xor_pre (big small : bytes) : bytes :=
  match big, small with
  | x :: b, y :: s => bxor x y :: xor_pre b s
  | _, [] => big
  | [], _ => []
  end.
Definition xor (a b : bytes) : bytes := if (length a <? length b)%nat then xor_pre b a else xor_pre a b.

(** ids shared by keygen and onsign NewLocalParty: keygen/local_party.go 84-93, onsign/local_party.go
    96-104.  [pids] is the split id string; a negative count panics in make, a short list panics in
    pIDs[i], a non-decimal id gives a nil key and panics in NewPartyID. *)
Fixpoint build_ids (i : Z) (k : nat) (pids : list bytes) : outcome (list party_id) :=
  match k with
  | O => Ret []
  | S k => match pids with
           | [] => Panic
           | s :: r => let! p := new_party_id (itoa i) (str "m_" ++ itoa i) (parse_int 10 s) in
                       let! ps := build_ids (i + 1) k r in Ret (p :: ps)
           end
  end.
Definition make_ids (count : Z) (pids : list bytes) : outcome (list party_id) :=
  if count <? 0 then Panic
  else let! l := build_ids 0 (Z.to_nat count) pids in Ret (sort_party_ids 0 l).

(** local_party.go 70-124 NewLocalParty (the registry insertion is in Api.v): the new party, or an error *)
Definition kg_new (partyIndex partyCount : Z) (pids : list bytes) (rootPrivKey : bytes) : outcome (res * option kparty) :=
  let! ids := make_ids partyCount pids in
  let! self := idx ids partyIndex in
  match hex_dec rootPrivKey with
  | None => Ret (fail EHex, None)
  | Some kb =>
    let n := Z.to_nat partyCount in
    Ret (ok0, Some {| kp_i := Z.to_nat (pid_index self); kp_ids := ids;
                      kp_save := set_priv (Some (of_be kb)) (new_save n);
                      kp_tau := None; kp_A := None; kp_srid := []; kp_u := [];
                      kp_payload := repeat None n; kp_ssid := []; kp_V := repeat [] n;
                      kp_r1 := repeat [] n; kp_r2 := repeat [] n; kp_r3 := repeat [] n; kp_number := 0 |})
  end.

(** local_party.go 127-156 SaveChainCodes *)
Fixpoint parse_chain (j : nat) (l : list bytes) : nat + list (option Z) :=
  match l with
  | [] => inr []
  | s :: r => match parse_int 16 s with
              | None => inl j
              | Some z => match parse_chain (S j) r with inl e => inl e | inr x => inr (Some z :: x) end
              end
  end.
Definition save_chain_codes (codes : bytes) (p : kparty) : outcome (res * kparty) :=
  let parts := split (zb 124) codes in
  if (length parts =? length (sv_pub (kp_save p)))%nat then
    match parse_chain 0 parts with
    | inl j => Ret (fail (EChain j), p)
    | inr l => Ret (ok0, k_set_save (set_chain (Some l) (kp_save p)) p)
    end
  else Ret (fail ECount, p).

(** local_party.go 180-189 *)
Definition kg_ssid : bytes := str "eddsacmp-keygen".

(** random choices of one KeygenRound1Exec (round_1.go 55, 59, 62, 63) *)
Record kg_rand := { kr_x : Z; kr_tau : Z; kr_u : bytes; kr_srid : bytes }.

Section Rounds.
  Variable C : curve.
  Variable H : bytes -> bytes.      (* crypto.SHA512_256 *)
  Notation n := (c_n C).

  (** round_1.go 70-79 and round_3.go 66-75: the commitment hash *)
  Definition commit_parts (ssid : bytes) (j : nat) (srid : bytes) (X A : point) (u : bytes) : list bytes :=
    [ssid; itoa (Z.of_nat j); srid; to_be (px X); to_be (py X); to_be (px A); to_be (py A); u].
  Definition commit (ssid : bytes) (j : nat) (srid : bytes) (X A : point) (u : bytes) : bytes :=
    match sha_parts H (commit_parts ssid j srid X A u) with Some v => v | None => [] end.

  (** round_3.go 88-98, round_4.go 45-55 (same computation with index j, X_j, A_j) *)
  Definition kg_challenge (ssid srid : bytes) (j : nat) (X A : point) : outcome Z :=
    reject_sample n (sha_tagged H (ssid ++ srid) (map Some [Z.of_nat j; px X; py X; px A; py A])).

  (** round_1.go 31-93 KeygenRound1Exec *)
  Definition kg_r1_exec (r : kg_rand) (p : kparty) : outcome (res * kparty) :=
    let i := kp_i p in
    let x := match sv_priv (kp_save p) with Some x => x | None => kr_x r end in
    match base_mul C x, base_mul C (kr_tau r) with
    | Some X, Some A =>
      let ks := keys (kp_ids p) in
      let! pub := store (sv_pub (kp_save p)) (Z.of_nat i) (Some X) in
      let! share := idx ks (Z.of_nat i) in
      let v := commit kg_ssid i (kr_srid r) X A (kr_u r) in
      let w := wire_bytes (CKg1 v) in
      let! r1 := store (kp_r1 p) (Z.of_nat i) w in
      let s := kp_save p in
      Ret (okd w, {| kp_i := i; kp_ids := kp_ids p;
        kp_save := {| sv_priv := Some x; sv_share := Some share; sv_chain := sv_chain s; sv_ks := map Some ks;
                      sv_pub := pub; sv_ed := sv_ed s; sv_pks := sv_pks s; sv_peds := sv_peds s |};
        kp_tau := Some (kr_tau r); kp_A := Some A; kp_srid := kr_srid r; kp_u := kr_u r;
        kp_payload := kp_payload p; kp_ssid := kg_ssid; kp_V := kp_V p; kp_r1 := r1; kp_r2 := kp_r2 p;
        kp_r3 := kp_r3 p; kp_number := 1 |})
    | _, _ => Panic
    end.

  (** which of the three message slots *)
  Definition k_slots (r : nat) (p : kparty) : list bytes :=
    match r with 1%nat => kp_r1 p | 2%nat => kp_r2 p | _ => kp_r3 p end.
  Definition k_set_slots (r : nat) (l : list bytes) (p : kparty) : kparty :=
    match r with 1%nat => k_set_r1 l p | 2%nat => k_set_r2 l p | _ => k_set_r3 l p end.
  Definition kg_type_ok (r : nat) (c : content) : bool :=
    match r, c with 1%nat, CKg1 _ => true | 2%nat, CKg2 _ => true | 3%nat, CKg3 _ _ _ => true | _, _ => false end.

  (** round_1.go 95-124, round_2.go 63-92, round_3.go 119-148: KeygenRoundRAccept (r = 1, 2, 3).  The slot is
      written before the message is parsed; a wrong message type calls err.Error() on a nil error. *)
  Definition kg_accept (r : nat) (from : Z) (msg : bytes) (p : kparty) : outcome (res * kparty) :=
    match b64_dec msg with
    | None => Ret (fail EB64, p)
    | Some w =>
      let! sl := store (k_slots r p) from w in
      let p' := k_set_slots r sl p in
      match parse_wire w with
      | None => Ret (fail EParse, p')
      | Some c => if kg_type_ok r c then Ret (ok0, p') else Panic
      end
    end.

  (** round_1.go 126-145, round_2.go 94-113, round_3.go 150-169: KeygenRoundRFinish *)
  Fixpoint first_missing (skip : option nat) (j : nat) (l : list bytes) : option nat :=
    match l with
    | [] => None
    | m :: t => if match skip with Some i => (i =? j)%nat | None => false end then first_missing skip (S j) t
                else match m with [] => Some j | _ => first_missing skip (S j) t end
    end.
  Definition kg_finish (r : nat) (p : kparty) : outcome (res * kparty) :=
    match first_missing (Some (kp_i p)) 0 (k_slots r p) with
    | Some j => Ret (fail (EMissing j), p)
    | None => Ret (ok0, p)
    end.

  (** round_2.go 29-38: the loop over the round-1 messages *)
  Fixpoint kg_r2_loop (js : list nat) (p : kparty) : outcome (option gerr * kparty) :=
    match js with
    | [] => Ret (None, p)
    | j :: js =>
      match parse_wire (nth j (kp_r1 p) []) with
      | None => Ret (Some EParse, p)
      | Some (CKg1 v) => kg_r2_loop js (k_set_V (upd j v (kp_V p)) p)
      | Some _ => Panic
      end
    end.
  (** round_2.go 16-61 KeygenRound2Exec *)
  Definition kg_r2_exec (p : kparty) : outcome (res * kparty) :=
    let p := k_set_number 2 p in
    let! (e, p) := kg_r2_loop (seq 0 (length (kp_r1 p))) p in
    match e with
    | Some e => Ret (fail e, p)
    | None =>
      let! Xo := idx (sv_pub (kp_save p)) (Z.of_nat (kp_i p)) in
      let! X := deref Xo in
      let! A := deref (kp_A p) in
      let w := wire_bytes (CKg2 {| k2_ssid := kp_ssid p; k2_pi := 0; k2_srid := kp_srid p;
                 k2_xx := to_be (px X); k2_xy := to_be (py X); k2_ax := to_be (px A); k2_ay := to_be (py A);
                 k2_u := kp_u p; k2_pn := []; k2_ps := []; k2_pt := [] |}) in
      let! r2 := store (kp_r2 p) (Z.of_nat (kp_i p)) w in
      Ret (okd w, k_set_r2 r2 p)
    end.

  (** round_3.go 35-86: one iteration for j <> i *)
  Definition kg_r3_one (j : nat) (p : kparty) : outcome (option gerr * kparty) :=
    match parse_wire (nth j (kp_r2 p) []) with
    | None => Ret (Some EParse, p)
    | Some (CKg2 m) =>
      match new_point C (of_be (k2_ax m)) (of_be (k2_ay m)) with
      | None => Ret (Some EPayload, k_set_payload (upd j None (kp_payload p)) p)
      | Some A =>
        let pl := {| pl_A := A; pl_ssid := k2_ssid m; pl_srid := k2_srid m; pl_u := k2_u m |} in
        let p := k_set_payload (upd j (Some pl) (kp_payload p)) p in
        match new_point C (of_be (k2_xx m)) (of_be (k2_xy m)) with
        | None => Ret (Some EPubXj, k_set_save (set_pub (upd j None (sv_pub (kp_save p))) (kp_save p)) p)
        | Some X =>
          let p := k_set_save (set_pub (upd j (Some X) (sv_pub (kp_save p))) (kp_save p)) p in
          if bytes_eqb (pl_ssid pl) (kp_ssid p) then
            if bytes_eqb (commit (kp_ssid p) j (pl_srid pl) X A (pl_u pl)) (nth j (kp_V p) []) then
              Ret (None, k_set_srid (xor (kp_srid p) (pl_srid pl)) p)
            else Ret (Some (EHash j), p)
          else Ret (Some (ESsid j), p)
        end
      end
    | Some _ => Panic
    end.
  Fixpoint kg_r3_loop (js : list nat) (p : kparty) : outcome (option gerr * kparty) :=
    match js with
    | [] => Ret (None, p)
    | j :: js =>
      if (j =? kp_i p)%nat then kg_r3_loop js p
      else let! (e, p') := kg_r3_one j p in
           match e with Some e => Ret (Some e, p') | None => kg_r3_loop js p' end
    end.
  (** round_3.go 22-117 KeygenRound3Exec *)
  Definition kg_r3_exec (p : kparty) : outcome (res * kparty) :=
    let p := k_set_number 3 p in
    let! (e, p) := kg_r3_loop (seq 0 (length (kp_r2 p))) p in
    match e with
    | Some e => Ret (fail e, p)
    | None =>
      let! Xo := idx (sv_pub (kp_save p)) (Z.of_nat (kp_i p)) in
      let! X := deref Xo in
      let! A := deref (kp_A p) in
      let! c := kg_challenge (kp_ssid p) (kp_srid p) (kp_i p) X A in
      let! tau := deref (kp_tau p) in
      let! x := deref (sv_priv (kp_save p)) in
      let w := wire_bytes (CKg3 (to_be (sch_prove n tau c x)) [] []) in
      let! r3 := store (kp_r3 p) (Z.of_nat (kp_i p)) w in
      Ret (okd w, k_set_r3 r3 p)
    end.

  (** round_4.go 33-64: one iteration for j <> i *)
  Definition kg_r4_one (j : nat) (p : kparty) : outcome (option gerr) :=
    match parse_wire (nth j (kp_r3 p) []) with
    | None => Ret (Some EParse)
    | Some c =>
      let! X := deref (nth j (sv_pub (kp_save p)) None) in
      let! pl := deref (nth j (kp_payload p) None) in
      let! ch := kg_challenge (kp_ssid p) (kp_srid p) j X (pl_A pl) in
      match c with
      | CKg3 sch _ _ =>
        let! ok := sch_verify C (pl_A pl) X ch (of_be sch) in
        Ret (if ok then None else Some (ESchnorr j))
      | _ => Panic
      end
    end.
  Fixpoint kg_r4_loop (js : list nat) (p : kparty) : outcome (option gerr) :=
    match js with
    | [] => Ret None
    | j :: js =>
      if (j =? kp_i p)%nat then kg_r4_loop js p
      else let! e := kg_r4_one j p in match e with Some e => Ret (Some e) | None => kg_r4_loop js p end
    end.
  (** round_4.go 67-80 and onsign/round_1.go 51-63: the sum of the public shares.  A nil share panics. *)
  Fixpoint sum_points (j : nat) (acc : point) (l : list (option point)) : outcome (gerr + point) :=
    match l with
    | [] => Ret (inr acc)
    | None :: _ => Panic
    | Some p :: r => match pt_add C acc p with
                     | None => Ret (inl (ESum j))
                     | Some q => sum_points (S j) q r
                     end
    end.
  Definition sum_pub (l : list (option point)) : outcome (gerr + point) :=
    match l with Some p :: r => sum_points 1 p r | _ => Panic end.
  (** round_4.go 19-94 KeygenRound4Exec *)
  Definition kg_r4_exec (p : kparty) : outcome (res * kparty) :=
    let p := k_set_number 4 p in
    let! e := kg_r4_loop (seq 0 (length (kp_r3 p))) p in
    match e with
    | Some e => Ret (fail e, p)
    | None =>
      let! s := sum_pub (sv_pub (kp_save p)) in
      match s with
      | inl e => Ret (fail e, p)
      | inr y => let sv := set_ed (Some y) (kp_save p) in Ret (okd (save_enc sv), k_set_save sv p)
      end
    end.
End Rounds.
