(** Subset.v -- keygen/save_data.go 61-83 BuildLocalSaveDataSubset.

    newData.LocalKeygenSavaData = sourceData.LocalKeygenSavaData copies slice headers, so newData.Ks and newData.PubXj
    are the SAME arrays as sourceData's: the loop below reads and writes one list.  The Paillier and Pedersen lists of the
    result are fresh.  The result pairs the function's result with the source data as the caller sees it afterwards. *)
From Verif Require Import Base BigInt Text PartyID Curve Save Keygen.

(** 62-66: the map from hex(Ks[j].Bytes()) to j; a later equal key overwrites; a nil key panics *)
Fixpoint key_map (j : nat) (ks : list (option Z)) (m : gmap nat) : outcome (gmap nat) :=
  match ks with
  | [] => Ret m
  | None :: _ => Panic
  | Some k :: r => key_map (S j) r (mput (hex_enc (to_be k)) j m)
  end.

(** the lists being filled: the shared Ks and PubXj, the new Paillier and Pedersen lists *)
Record sub_lists := { su_ks : list (option Z); su_pub : list (option point);
                      su_pks : list (option (option Z)); su_peds : list (option pedpk) }.

(** 70-81 *)
Fixpoint sub_loop (m : gmap nat) (src_pks : list (option (option Z))) (src_peds : list (option pedpk))
    (j : nat) (ids : list party_id) (s : sub_lists) : outcome (option gerr * sub_lists) :=
  match ids with
  | [] => Ret (None, s)
  | id :: rest =>
    match mget (hex_enc (pid_key id)) m with
    | None => Ret (Some ESigner, s)
    | Some sj =>
      let! k := idx (su_ks s) (Z.of_nat sj) in
      let! ks := store (su_ks s) (Z.of_nat j) k in
      let! x := idx (su_pub s) (Z.of_nat sj) in
      let! pub := store (su_pub s) (Z.of_nat j) x in
      let! pk := idx src_pks (Z.of_nat sj) in
      let! pks := store (su_pks s) (Z.of_nat j) pk in
      let! pd := idx src_peds (Z.of_nat sj) in
      let! peds := store (su_peds s) (Z.of_nat j) pd in
      sub_loop m src_pks src_peds (S j) rest {| su_ks := ks; su_pub := pub; su_pks := pks; su_peds := peds |}
    end
  end.

(** 61-83 *)
Definition build_subset (src : save) (ids : list party_id) : outcome ((gerr + save) * save) :=
  let! m := key_map 0 (sv_ks src) [] in
  let c := length ids in
  let! (e, s) := sub_loop m (sv_pks src) (sv_peds src) 0 ids
     {| su_ks := sv_ks src; su_pub := sv_pub src; su_pks := repeat None c; su_peds := repeat None c |} in
  let src' := set_pub (su_pub s) (set_ks (su_ks s) src) in
  match e with
  | Some e => Ret (inl e, src')
  | None => Ret (inr (set_peds (su_peds s) (set_pks (su_pks s) src')), src')
  end.
