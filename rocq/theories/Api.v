(** Api.v -- the exported calls (eddsa.go) over the two session registries.  The parties are stored by pointer in Go
    (keygen/local_party.go 121 [Parties[key] = p], onsign/local_party.go 208 [SignParties[key] = p]); every New builds a
    fresh party that shares nothing with another one, so the model stores values and puts the updated party back. *)
From Verif Require Import Base BigInt Text Wire Messages PartyID Curve Save Keygen KeygenAdv RangeProofs Ckd Onsign OnsignHist.

Record api_state := { a_kg : gmap kparty; a_sg : gmap sparty }.
(** one exported call with all its arguments (and the randomness it draws) *)
Inductive api :=
| ANewK (key : bytes) (partyIndex partyCount : Z) (pids root : bytes)                  (* NewKeygenLocalParty *)
| ARemK (key : bytes)                                                                  (* RemoveKeygenParty *)
| AK (key : bytes) (o : kop)                                                           (* SaveChainCodes, KeygenRound*.. *)
| ANewS (key : bytes) (partyIndex partyCount : Z) (pids msg keyData refresh path : bytes)  (* NewSignLocalParty *)
| ARemS (key : bytes)                                                                  (* RemoveSignParty *)
| AS (key : bytes) (o : sop).                                                          (* OnSign.., GetOnSign.. *)
Inductive reply := RRes (r : res) | RBool (b : bool).
Definition comma : byte := zb 44.

Section Api.
  Variables (C : curve) (D : edlib) (H B S5 : bytes -> bytes) (HM : bytes -> bytes -> bytes) (spare : bytes -> bytes).

  (** eddsa.go 31-218; the result conversions (execResFromKeygen etc.) copy Ok, Err and the bytes *)
  Definition api_run (o : api) (s : api_state) : outcome (reply * api_state) :=
    match o with
    | ANewK key i n pids root =>
        (* eddsa.go 35-45; keygen/local_party.go 70-124: the registry is written at the end, on success only *)
        let! (r, p) := kg_new i n (split comma pids) root in
        Ret (RRes r, match p with Some p => {| a_kg := mput key p (a_kg s); a_sg := a_sg s |} | None => s end)
    | ARemK key =>
        (* keygen/local_party.go 158-164 *)
        match mget key (a_kg s) with
        | None => Ret (RBool false, s)
        | Some _ => Ret (RBool true, {| a_kg := mdel key (a_kg s); a_sg := a_sg s |})
        end
    | AK key k =>
        (* every keygen call starts with "party, ok := Parties[key]; if !ok ..." before reading its other arguments *)
        match mget key (a_kg s) with
        | None => Ret (RRes (fail ENotFound), s)
        | Some p => let! (r, p') := kop_run C H k p in Ret (RRes r, {| a_kg := mput key p' (a_kg s); a_sg := a_sg s |})
        end
    | ANewS key i n pids msg kd rf path =>
        (* eddsa.go 104-117; onsign/local_party.go 76-210 *)
        let! (r, p) := sg_new C HM spare i n (split comma pids) msg kd rf path in
        Ret (RRes r, match p with Some p => {| a_kg := a_kg s; a_sg := mput key p (a_sg s) |} | None => s end)
    | ARemS key =>
        (* onsign/local_party.go 213-219 *)
        match mget key (a_sg s) with
        | None => Ret (RBool false, s)
        | Some _ => Ret (RBool true, {| a_kg := a_kg s; a_sg := mdel key (a_sg s) |})
        end
    | AS key k =>
        match mget key (a_sg s) with
        | None => Ret (RRes (fail ENotFound), s)
        | Some p => let! (r, p') := sop_run C D B S5 k p in Ret (RRes r, {| a_kg := a_kg s; a_sg := mput key p' (a_sg s) |})
        end
    end.
  (** a history of calls: the replies and the final state, unless one of the calls panics *)
  Fixpoint api_hist (l : list api) (s : api_state) : outcome (list reply * api_state) :=
    match l with
    | [] => Ret ([], s)
    | o :: l' => let! (r, s1) := api_run o s in let! (rs, s2) := api_hist l' s1 in Ret (r :: rs, s2)
    end.
End Api.
Definition api_empty : api_state := {| a_kg := []; a_sg := [] |}.
(** error text of a call on an unknown key: "party not found: <key>" everywhere, except that OnSignRound2Finish
    (onsign/round_2.go 176-181) says "not SignRound1Message2" *)
Definition not_found_text (o : api) : bytes :=
  match o with
  | AS _ (SFin 2) => str "not SignRound1Message2"
  | ANewK key _ _ _ _ | ARemK key | AK key _ | ANewS key _ _ _ _ _ _ _ | ARemS key | AS key _ => str "party not found: " ++ key
  end.
