(** Save.v -- eddsacmp/keygen/save_data.go: the saved key data, its JSON form, and the signer subset. *)
From Verif Require Import Base BigInt Text Json PartyID Curve.

(** crypto/alice/paillier/ringpedersen.go 14-18 *)
Record pedpk := { pd_n : option Z; pd_s : option Z; pd_t : option Z }.

(** save_data.go 15-43.  Pointers are [option]; a nil slice and an empty slice are identified except for
    ChainCodes ([None] = nil).  A Paillier public key is represented by its field N. *)
Record save := {
  sv_priv : option Z; sv_share : option Z; sv_chain : option (list (option Z));
  sv_ks : list (option Z); sv_pub : list (option point); sv_ed : option point;
  sv_pks : list (option (option Z)); sv_peds : list (option pedpk) }.

(** save_data.go 46-52 NewLocalPartySaveData (partyCount >= 0) *)
Definition new_save (n : nat) : save :=
  {| sv_priv := None; sv_share := None; sv_chain := None; sv_ks := repeat None n; sv_pub := repeat None n;
     sv_ed := None; sv_pks := repeat None n; sv_peds := repeat None n |}.

Definition set_priv v s := {| sv_priv := v; sv_share := sv_share s; sv_chain := sv_chain s; sv_ks := sv_ks s; sv_pub := sv_pub s; sv_ed := sv_ed s; sv_pks := sv_pks s; sv_peds := sv_peds s |}.
Definition set_share v s := {| sv_priv := sv_priv s; sv_share := v; sv_chain := sv_chain s; sv_ks := sv_ks s; sv_pub := sv_pub s; sv_ed := sv_ed s; sv_pks := sv_pks s; sv_peds := sv_peds s |}.
Definition set_chain v s := {| sv_priv := sv_priv s; sv_share := sv_share s; sv_chain := v; sv_ks := sv_ks s; sv_pub := sv_pub s; sv_ed := sv_ed s; sv_pks := sv_pks s; sv_peds := sv_peds s |}.
Definition set_ks v s := {| sv_priv := sv_priv s; sv_share := sv_share s; sv_chain := sv_chain s; sv_ks := v; sv_pub := sv_pub s; sv_ed := sv_ed s; sv_pks := sv_pks s; sv_peds := sv_peds s |}.
Definition set_pub v s := {| sv_priv := sv_priv s; sv_share := sv_share s; sv_chain := sv_chain s; sv_ks := sv_ks s; sv_pub := v; sv_ed := sv_ed s; sv_pks := sv_pks s; sv_peds := sv_peds s |}.
Definition set_ed v s := {| sv_priv := sv_priv s; sv_share := sv_share s; sv_chain := sv_chain s; sv_ks := sv_ks s; sv_pub := sv_pub s; sv_ed := v; sv_pks := sv_pks s; sv_peds := sv_peds s |}.
Definition set_pks v s := {| sv_priv := sv_priv s; sv_share := sv_share s; sv_chain := sv_chain s; sv_ks := sv_ks s; sv_pub := sv_pub s; sv_ed := sv_ed s; sv_pks := v; sv_peds := sv_peds s |}.
Definition set_peds v s := {| sv_priv := sv_priv s; sv_share := sv_share s; sv_chain := sv_chain s; sv_ks := sv_ks s; sv_pub := sv_pub s; sv_ed := sv_ed s; sv_pks := sv_pks s; sv_peds := v |}.

(** ** JSON form (encoding/json on LocalPartySaveData; embedded structs are flattened in field order) *)
(** big.Int.MarshalJSON: decimal *)
Definition ztok (z : Z) : bytes := if z <? 0 then zb 45 :: itoa (- z) else itoa z.
Definition jz (o : option Z) : json := match o with Some z => JNum (ztok z) | None => JNull end.
(** crypto/ecpoint.go 226-240 MarshalJSON (nil pointer: null) *)
Definition jpoint (o : option point) : json :=
  match o with
  | Some p => JObj [(str "Curve", JStr (str "ed25519")); (str "Coords", JArr [jz (Some (px p)); jz (Some (py p))])]
  | None => JNull
  end.
Definition jpk (o : option (option Z)) : json := match o with Some z => JObj [(str "N", jz z)] | None => JNull end.
Definition jped (o : option pedpk) : json :=
  match o with Some d => JObj [(str "N", jz (pd_n d)); (str "S", jz (pd_s d)); (str "T", jz (pd_t d))] | None => JNull end.
Definition save_json (s : save) : json :=
  JObj [(str "PrivXi", jz (sv_priv s)); (str "ShareID", jz (sv_share s));
        (str "ChainCodes", match sv_chain s with Some l => JArr (map jz l) | None => JNull end);
        (str "Ks", JArr (map jz (sv_ks s))); (str "PubXj", JArr (map jpoint (sv_pub s)));
        (str "EdDSAPub", jpoint (sv_ed s));
        (str "PaillierPKs", JArr (map jpk (sv_pks s))); (str "RingPedersenPKs", JArr (map jped (sv_peds s)))].
(** round_4.go 83 json.Marshal(party.save) *)
Definition save_enc (s : save) : bytes := jenc (save_json s).

(** *** decoding (onsign/local_party.go 112-117).
    Simplification: repeated keys of nested structs do not merge;
    a point naming the other registered curve ("secp256k1") is rejected here (Go accepts it); a point without a
    curve name is read on tss.EC(), taken to be Ed25519 as keygen's NewLocalParty sets it (in a process that only
    signs, Go would use the default secp256k1).  PointEnc.v models the two-curve registry. *)
Definition lower (b : byte) : byte := if (65 <=? bz b) && (bz b <=? 90) then zb (bz b + 32) else b.
(** encoding/json compares keys by simple Unicode case folding, under which the Kelvin sign U+212A (E2 84 AA) is a k
    and the long s U+017F (C5 BF) is an s; the struct's own names are ASCII. *)
Fixpoint fold_name (k : bytes) : bytes :=
  match k with
  | [] => []
  | a :: r =>
    match r with
    | [] => [lower a]
    | c :: r1 =>
      if (bz a =? 197) && (bz c =? 191) then zb 115 :: fold_name r1
      else match r1 with
           | d :: r2 => if (bz a =? 226) && (bz c =? 132) && (bz d =? 170) then zb 107 :: fold_name r2 else lower a :: fold_name r
           | [] => lower a :: fold_name r
           end
    end
  end.
Definition name_is (n : string) (k : bytes) : bool := bytes_eqb (map lower (str n)) (fold_name k).
Definition dz (j : json) : option (option Z) :=
  match j with
  | JNull => Some None
  | JNum t => match parse_int 10 t with Some z => Some (Some z) | None => None end
  | _ => None
  end.
Fixpoint dlist {A} (d : json -> option A) (l : list json) : option (list A) :=
  match l with
  | [] => Some []
  | j :: r => match d j, dlist d r with Some a, Some x => Some (a :: x) | _, _ => None end
  end.
Definition darr {A} (d : json -> option A) (j : json) : option (list A) :=
  match j with JNull => Some [] | JArr l => dlist d l | _ => None end.
Definition dfields {A} (f : A -> bytes * json -> option A) (init : A) (l : list (bytes * json)) : option A :=
  fold_left (fun acc kv => match acc with Some a => f a kv | None => None end) l (Some init).

Section Dec.
  Variable C : curve.
  Definition dpoint_field (acc : bytes * (option Z * option Z)) (kv : bytes * json) :=
    if name_is "Curve" (fst kv) then
      match snd kv with JStr s => Some (s, snd acc) | JNull => Some acc | _ => None end
    else if name_is "Coords" (fst kv) then
      match snd kv with
      | JNull => Some acc
      | JArr l => match dlist dz (firstn 2 l) with
                  | Some [x; y] => Some (fst acc, (x, y))
                  | Some [x] => Some (fst acc, (x, None))
                  | Some [] => Some (fst acc, (None, None))
                  | _ => None
                  end
      | _ => None
      end
    else Some acc.
  (** crypto/ecpoint.go 242-268 UnmarshalJSON *)
  Definition dpoint (j : json) : option (option point) :=
    match j with
    | JNull => Some None
    | JObj l =>
      match dfields dpoint_field ([], (None, None)) l with
      | Some (nm, (Some x, Some y)) =>
        if bytes_eqb nm [] || bytes_eqb nm (str "ed25519") then
          match new_point C x y with Some p => Some (Some p) | None => None end
        else None
      | _ => None
      end
    | _ => None
    end.
  Definition dpk (j : json) : option (option (option Z)) :=
    match j with
    | JNull => Some None
    | JObj l => match dfields (fun acc kv => if name_is "N" (fst kv) then dz (snd kv) else Some acc) None l with
                | Some z => Some (Some z) | None => None end
    | _ => None
    end.
  Definition dped_field (d : pedpk) (kv : bytes * json) : option pedpk :=
    if name_is "N" (fst kv) then match dz (snd kv) with Some z => Some {| pd_n := z; pd_s := pd_s d; pd_t := pd_t d |} | None => None end
    else if name_is "S" (fst kv) then match dz (snd kv) with Some z => Some {| pd_n := pd_n d; pd_s := z; pd_t := pd_t d |} | None => None end
    else if name_is "T" (fst kv) then match dz (snd kv) with Some z => Some {| pd_n := pd_n d; pd_s := pd_s d; pd_t := z |} | None => None end
    else Some d.
  Definition dped (j : json) : option (option pedpk) :=
    match j with
    | JNull => Some None
    | JObj l => match dfields dped_field {| pd_n := None; pd_s := None; pd_t := None |} l with
                | Some d => Some (Some d) | None => None end
    | _ => None
    end.
  Definition dsave_field (s : save) (kv : bytes * json) : option save :=
    let '(k, v) := kv in
    let fld {A} (o : option A) (set : A -> save -> save) := match o with Some a => Some (set a s) | None => None end in
    if name_is "PrivXi" k then fld (dz v) set_priv
    else if name_is "ShareID" k then fld (dz v) set_share
    else if name_is "ChainCodes" k then
      match v with JNull => Some (set_chain None s) | _ => fld (darr dz v) (fun l => set_chain (Some l)) end
    else if name_is "Ks" k then fld (darr dz v) set_ks
    else if name_is "PubXj" k then fld (darr dpoint v) set_pub
    else if name_is "EdDSAPub" k then fld (dpoint v) set_ed
    else if name_is "PaillierPKs" k then fld (darr dpk v) set_pks
    else if name_is "RingPedersenPKs" k then fld (darr dped v) set_peds
    else Some s.
  Definition save_of_json (j : json) : option save :=
    match j with
    | JObj l => dfields dsave_field (new_save 0) l
    | JNull => Some (new_save 0)
    | _ => None
    end.
  (** onsign/local_party.go 113 json.Unmarshal(keyDataBytes, keys) *)
  Definition save_dec (b : bytes) : option save :=
    match jdec b with Some j => save_of_json j | None => None end.
End Dec.

(** ** Round trip of the saved data *)
Lemma hexchr_dig d : 0 <= d < 10 -> bz (hexchr d) = 48 + d.
Proof. intro H. unfold hexchr. destruct (Z.ltb_spec d 10); [|lia]. rewrite bz_zb_small; lia. Qed.

Lemma dec_aux_shape fuel z acc : 0 <= z -> z < 2 ^ Z.of_nat fuel -> (0 < fuel)%nat ->
  exists b s, dec_aux fuel z acc = b :: s ++ acc /\ is_dig b = true /\ forallb is_dig s = true /\
    (bz b = 48 -> s = []).
Proof.
  revert z acc; induction fuel as [|f IH]; intros z acc H0 H1 Hf; [lia|].
  cbn [dec_aux]. assert (M : 0 <= z mod 10 < 10) by lia.
  assert (D : is_dig (hexchr (z mod 10)) = true) by (unfold is_dig; rewrite hexchr_dig by lia; lia).
  destruct (Z.leb_spec (z / 10) 0).
  - exists (hexchr (z mod 10)), []. repeat split; auto.
  - rewrite Nat2Z.inj_succ, Z.pow_succ_r in H1 by lia.
    assert (f <> 0)%nat by (intro; subst; change (2 ^ Z.of_nat 0) with 1 in H1; lia).
    destruct (IH (z / 10) (hexchr (z mod 10) :: acc)) as (b & s & E & Db & Ds & Z0); [lia|lia|lia|].
    exists b, (s ++ [hexchr (z mod 10)]). split; [rewrite E, <- app_assoc; reflexivity|]. split; [exact Db|].
    split; [rewrite forallb_app, Ds; cbn [forallb]; rewrite D; reflexivity|].
    intro Hb. exfalso.
    destruct (dec_aux_correct f (z / 10) (hexchr (z mod 10) :: acc)) as (s' & E' & _ & V); [lia|lia|lia|].
    rewrite E in E'. specialize (Z0 Hb). subst s. cbn [app] in E'.
    destruct s' as [|c s'].
    + apply (f_equal (@length byte)) in E'. cbn in E'. lia.
    + injection E' as Eb Es. subst c. destruct s' as [|d s'].
      * cbn in V. unfold hexdig in V. rewrite Hb in V. cbn in V. inversion V. lia.
      * apply (f_equal (@length byte)) in Es. cbn in Es. rewrite app_length in Es. cbn in Es. lia.
Qed.

Lemma itoa_shape z : 0 <= z -> exists b s, itoa z = b :: s /\ is_dig b = true /\ forallb is_dig s = true /\ (bz b = 48 -> s = []).
Proof.
  intro H. unfold itoa.
  destruct (dec_aux_shape (S (Z.to_nat (Z.log2 z))) z []) as (b & s & E & R); [exact H|apply log2_fuel; exact H|lia|].
  exists b, s. rewrite E, app_nil_r. auto.
Qed.
Lemma digits_numch s : forallb is_dig s = true -> forallb is_numch s = true.
Proof.
  intro H. rewrite forallb_forall in H |- *. intros x Hx. unfold is_numch. rewrite (H x Hx). reflexivity.
Qed.
Lemma itoa_num z : 0 <= z -> num_ok (itoa z) = true /\ forallb is_numch (itoa z) = true.
Proof.
  intro H. destruct (itoa_shape z H) as (b & s & -> & Db & Ds & Z0). split.
  - unfold num_ok. assert (bz b <> 45) by (unfold is_dig in Db; lia). replace (bz b =? 45) with false by lia.
    destruct (Z.eqb_spec (bz b) 48) as [E|E]; [rewrite (Z0 E); reflexivity|]. rewrite Db, digs_all by auto. reflexivity.
  - apply digits_numch. cbn [forallb]. rewrite Db, Ds. reflexivity.
Qed.
Lemma ztok_num z : num_ok (ztok z) = true /\ forallb is_numch (ztok z) = true.
Proof.
  unfold ztok. destruct (Z.ltb_spec z 0) as [H|H]; [|apply itoa_num; lia].
  destruct (itoa_num (- z)) as [A B]; [lia|].
  destruct (itoa_shape (- z)) as (b & s & E & Db & _); [lia|]. split.
  - unfold num_ok in A |- *. rewrite E in A |- *. replace (bz (zb 45) =? 45) with true by reflexivity.
    assert (bz b <> 45) by (unfold is_dig in Db; lia). replace (bz b =? 45) with false in A by lia. exact A.
  - cbn [forallb]. rewrite B. reflexivity.
Qed.
Lemma ztok_parse z : parse_int 10 (ztok z) = Some z.
Proof.
  unfold ztok. destruct (Z.ltb_spec z 0) as [H|H]; [|apply parse_int_itoa; lia].
  destruct (itoa_spec (- z)) as [N V]; [lia|]. unfold parse_int. replace (bz (zb 45) =? 45) with true by reflexivity.
  unfold parse_nat. destruct (itoa (- z)); [congruence|]. rewrite V. f_equal. lia.
Qed.
Lemma dz_jz o : dz (jz o) = Some o.
Proof. destruct o as [z|]; [|reflexivity]. cbn [jz dz]. rewrite ztok_parse. reflexivity. Qed.
Lemma jok_jz o : jok (jz o).
Proof. destruct o; [apply ztok_num|exact I]. Qed.
Lemma jok_map {A} (f : A -> json) l : (forall a, jok (f a)) -> jok (JArr (map f l)).
Proof. intro H. cbn [jok]. induction l as [|a l IH]; cbn; auto. Qed.
Lemma dlist_map {A} (d : json -> option A) f l : (forall a, In a l -> d (f a) = Some a) -> dlist d (map f l) = Some l.
Proof.
  induction l as [|a l IH]; intro H; [reflexivity|]. cbn [map dlist]. rewrite H by (left; auto).
  rewrite IH by (intros; apply H; right; auto). reflexivity.
Qed.
Lemma jok_jpoint o : jok (jpoint o).
Proof. destruct o as [p|]; [|exact I]. cbn [jpoint jok fold_right fst snd]. repeat split; try reflexivity; apply ztok_num. Qed.
Lemma jok_jpk o : jok (jpk o).
Proof. destruct o as [z|]; [|exact I]. cbn [jpk jok fold_right fst snd]. repeat split; try reflexivity; apply jok_jz. Qed.
Lemma jok_jped o : jok (jped o).
Proof. destruct o as [z|]; [|exact I]. cbn [jped jok fold_right fst snd]. repeat split; try reflexivity; apply jok_jz. Qed.

Section RT.
  Variable C : curve.
  Definition save_points_on (s : save) : Prop :=
    (forall p, In (Some p) (sv_pub s) -> on C p = true) /\ (forall p, sv_ed s = Some p -> on C p = true).
  Lemma dpoint_jpoint o : (forall p, o = Some p -> on C p = true) -> dpoint C (jpoint o) = Some o.
  Proof.
    destruct o as [[x y]|]; intro H; [|reflexivity]. specialize (H _ eq_refl). unfold on in H. cbn [px py fst snd] in H.
    cbn [jpoint dpoint dfields fold_left]. unfold dpoint_field at 2. cbn [fst snd].
    change (name_is "Curve" (str "Curve")) with true. cbn iota.
    unfold dpoint_field. cbn [fst snd]. change (name_is "Curve" (str "Curve")) with true. change (name_is "Curve" (str "Coords")) with false.
    change (name_is "Coords" (str "Coords")) with true. cbn iota. cbn [firstn dlist]. rewrite !dz_jz.
    change (bytes_eqb (str "ed25519") []) with false. rewrite bytes_eqb_refl. cbn [orb px py fst snd].
    unfold new_point. rewrite H. reflexivity.
  Qed.
  Lemma dpk_jpk o : dpk (jpk o) = Some o.
  Proof.
    destruct o as [z|]; [|reflexivity]. cbn [jpk dpk dfields fold_left fst snd].
    change (name_is "N" (str "N")) with true. cbn iota. rewrite dz_jz. reflexivity.
  Qed.
  Lemma dped_jped o : dped (jped o) = Some o.
  Proof.
    destruct o as [[a b c]|]; [|reflexivity]. cbn [jped dped dfields fold_left pd_n pd_s pd_t].
    unfold dped_field. cbn [fst snd]. change (name_is "N" (str "N")) with true. cbn iota. rewrite dz_jz.
     cbn [fst snd]. change (name_is "N" (str "S")) with false. change (name_is "S" (str "S")) with true. cbn iota. rewrite dz_jz.
    cbn [fst snd]. change (name_is "N" (str "T")) with false. change (name_is "S" (str "T")) with false.
    change (name_is "T" (str "T")) with true. cbn iota. rewrite dz_jz. reflexivity.
  Qed.
  Lemma jok_save s : jok (save_json s).
  Proof.
    unfold save_json. cbn [jok fold_right fst snd].
    repeat split; try reflexivity; try apply jok_jz; try apply jok_jpoint;
      try (apply (jok_map jz); apply jok_jz); try (apply (jok_map jpoint); apply jok_jpoint);
      try (apply (jok_map jpk); apply jok_jpk); try (apply (jok_map jped); apply jok_jped).
    destruct (sv_chain s); [apply (jok_map jz); apply jok_jz|exact I].
  Qed.
  (** what key generation outputs is what signing reads back *)
  Theorem save_roundtrip s : save_points_on s -> save_dec C (save_enc s) = Some s.
  Proof.
    intros [Hp He]. unfold save_dec, save_enc. rewrite jdec_jenc by apply jok_save.
    unfold save_json, save_of_json, dfields. cbn [fold_left].
    assert (Hc : forall k v, dsave_field C k v = dsave_field C k v) by reflexivity. clear Hc.
    destruct s as [pr sh ch ks pub ed pks peds]. cbn [sv_priv sv_share sv_chain sv_ks sv_pub sv_ed sv_pks sv_peds] in *.
    unfold dsave_field.
    repeat match goal with |- context [name_is ?a (str ?b)] =>
      let r := eval vm_compute in (name_is a (str b)) in change (name_is a (str b)) with r end.
    cbn iota. rewrite !dz_jz. cbn iota.
    destruct ch as [l|]; cbn [darr]; [rewrite (dlist_map dz jz l) by (intros; apply dz_jz)|];
    rewrite (dlist_map dz jz ks) by (intros; apply dz_jz);
    rewrite (dlist_map (dpoint C) jpoint pub) by (intros a Ha; apply dpoint_jpoint; intros p ->; apply Hp; exact Ha);
    rewrite dpoint_jpoint by exact He;
    rewrite (dlist_map dpk jpk pks) by (intros; apply dpk_jpk);
    rewrite (dlist_map dped jped peds) by (intros; apply dped_jped); reflexivity.
  Qed.
End RT.
