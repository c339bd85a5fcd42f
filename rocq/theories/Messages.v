(** Messages.v -- the protocol messages and their wire encoding.

    Models protob/eddsa-cmp-keygen.proto, protob/eddsa-cmp-onsign.proto, crypto/encproof/enc_msg.proto,
    crypto/logproof/log_msg.proto (and the generated .pb.go files), tss/message.go 76-96
    (NewMessageWrapper: anypb.New), 135-141 (WireBytes: proto.Marshal of the Any),
    tss/wire.go 23-45 (ParseWireMsg). *)
From Verif Require Import Base BigInt Wire.

Record kg2 := { k2_ssid : bytes; k2_pi : Z; k2_srid : bytes; k2_xx : bytes; k2_xy : bytes;
                k2_ax : bytes; k2_ay : bytes; k2_u : bytes; k2_pn : bytes; k2_ps : bytes; k2_pt : bytes }.

Inductive content :=
| CKg1 (commitment : bytes)
| CKg2 (m : kg2)
| CKg3 (sch : bytes) (mods : list bytes) (prm : bytes)
| CS11 (big_k : bytes)
| CS12 (enc_proof : bytes)
| CS2 (rx ry log_proof : bytes)
| CS3 (sigma : bytes).

(** proto full names, e.g. eddsacmp/keygen/message/eddsa-cmp-keygen.pb.go 318-320 *)
Definition n_kg1 := str "legend.tsslib.eddsacmp.keygen.KGRound1Message".
Definition n_kg2 := str "legend.tsslib.eddsacmp.keygen.KGRound2Message".
Definition n_kg3 := str "legend.tsslib.eddsacmp.keygen.KGRound3Message".
Definition n_s11 := str "legend.tsslib.eddsacmp.onsign.SignRound1Message1".
Definition n_s12 := str "legend.tsslib.eddsacmp.onsign.SignRound1Message2".
Definition n_s2 := str "legend.tsslib.eddsacmp.onsign.SignRound2Message".
Definition n_s3 := str "legend.tsslib.eddsacmp.onsign.SignRound3Message".

Definition name_of (c : content) : bytes :=
  match c with
  | CKg1 _ => n_kg1 | CKg2 _ => n_kg2 | CKg3 _ _ _ => n_kg3
  | CS11 _ => n_s11 | CS12 _ => n_s12 | CS2 _ _ _ => n_s2 | CS3 _ => n_s3
  end.

Definition fields_of (c : content) : list (Z * wval) :=
  match c with
  | CKg1 v => fbytes 1 v
  | CKg2 m => fbytes 1 (k2_ssid m) ++ fint32 2 (k2_pi m) ++ fbytes 3 (k2_srid m) ++ fbytes 4 (k2_xx m)
              ++ fbytes 5 (k2_xy m) ++ fbytes 6 (k2_ax m) ++ fbytes 7 (k2_ay m) ++ fbytes 8 (k2_u m)
              ++ fbytes 9 (k2_pn m) ++ fbytes 10 (k2_ps m) ++ fbytes 11 (k2_pt m)
  | CKg3 s ms p => fbytes 1 s ++ freps 2 ms ++ fbytes 3 p
  | CS11 k => fbytes 1 k
  | CS12 e => fbytes 1 e
  | CS2 x y l => fbytes 1 x ++ fbytes 2 y ++ fbytes 3 l
  | CS3 s => fbytes 1 s
  end.

(** the Any value and its wire bytes (tss/message.go 135-141) *)
Definition type_prefix := str "type.googleapis.com/".
Definition any_enc (url value : bytes) : bytes := pb_enc (fbytes 1 url ++ fbytes 2 value).
Definition wire_bytes (c : content) : bytes := any_enc (type_prefix ++ name_of c) (pb_enc (fields_of c)).

(** protoregistry.FindMessageByURL: the part after the last '/' *)
Fixpoint after_slash (cur : bytes) (s : bytes) : bytes :=
  match s with
  | [] => cur
  | c :: r => if bz c =? 47 then after_slash r r else after_slash cur r
  end.
Definition last_component (s : bytes) : bytes := after_slash s s.

(** decoding of one message body by its registered type; [None] for every type that is not one of the
    seven contents (unregistered: resolver error; registered without ValidateBasic: "unknown content",
    tss/wire.go 44) and for undecodable bytes *)
Definition decode_as (name value : bytes) : option content :=
  match pb_dec value with
  | None => None
  | Some fs =>
    if bytes_eqb name n_kg1 then Some (CKg1 (get_bytes 1 fs))
    else if bytes_eqb name n_kg2 then
      Some (CKg2 {| k2_ssid := get_bytes 1 fs; k2_pi := get_int32 2 fs; k2_srid := get_bytes 3 fs;
                    k2_xx := get_bytes 4 fs; k2_xy := get_bytes 5 fs; k2_ax := get_bytes 6 fs;
                    k2_ay := get_bytes 7 fs; k2_u := get_bytes 8 fs; k2_pn := get_bytes 9 fs;
                    k2_ps := get_bytes 10 fs; k2_pt := get_bytes 11 fs |})
    else if bytes_eqb name n_kg3 then Some (CKg3 (get_bytes 1 fs) (get_reps 2 fs) (get_bytes 3 fs))
    else if bytes_eqb name n_s11 then Some (CS11 (get_bytes 1 fs))
    else if bytes_eqb name n_s12 then Some (CS12 (get_bytes 1 fs))
    else if bytes_eqb name n_s2 then Some (CS2 (get_bytes 1 fs) (get_bytes 2 fs) (get_bytes 3 fs))
    else if bytes_eqb name n_s3 then Some (CS3 (get_bytes 1 fs))
    else None
  end.

(** tss/wire.go 23-45 ParseWireMsg *)
Definition parse_wire (w : bytes) : option content :=
  match pb_dec w with
  | None => None
  | Some fs =>
    if strings_ok [1] fs then
      match get_bytes 1 fs with
      | [] => None                                   (* "invalid empty type URL" *)
      | url => decode_as (last_component url) (get_bytes 2 fs)
      end
    else None
  end.

(** ** Range-proof messages (sub-messages carried as bytes) *)
Record encmsg := { em_salt : bytes; em_S : bytes; em_A : bytes; em_C : bytes; em_z1 : bytes; em_z2 : bytes; em_z3 : bytes }.
(** proto.Marshal of EncryptRangeMessage (crypto/encproof/enc_msg.proto) *)
Definition encmsg_enc (m : encmsg) : bytes :=
  pb_enc (fbytes 1 (em_salt m) ++ fbytes 2 (em_S m) ++ fbytes 3 (em_A m) ++ fbytes 4 (em_C m)
          ++ fbytes 5 (em_z1 m) ++ fbytes 6 (em_z2 m) ++ fbytes 7 (em_z3 m)).
(** proto.Unmarshal (eddsacmp/onsign/message/messages.go 79-85) *)
Definition encmsg_dec (w : bytes) : option encmsg :=
  match pb_dec w with
  | None => None
  | Some fs => if strings_ok [5; 7] fs then
      Some {| em_salt := get_bytes 1 fs; em_S := get_bytes 2 fs; em_A := get_bytes 3 fs; em_C := get_bytes 4 fs;
              em_z1 := get_bytes 5 fs; em_z2 := get_bytes 6 fs; em_z3 := get_bytes 7 fs |}
      else None
  end.
Record logmsg := { lm_salt : bytes; lm_S : bytes; lm_A : bytes; lm_Yx : bytes; lm_Yy : bytes; lm_D : bytes;
                   lm_z1 : bytes; lm_z2 : bytes; lm_z3 : bytes }.
Definition logmsg_enc (m : logmsg) : bytes :=
  pb_enc (fbytes 1 (lm_salt m) ++ fbytes 2 (lm_S m) ++ fbytes 3 (lm_A m) ++ fbytes 4 (lm_Yx m) ++ fbytes 5 (lm_Yy m)
          ++ fbytes 6 (lm_D m) ++ fbytes 7 (lm_z1 m) ++ fbytes 8 (lm_z2 m) ++ fbytes 9 (lm_z3 m)).
Definition logmsg_dec (w : bytes) : option logmsg :=
  match pb_dec w with
  | None => None
  | Some fs => if strings_ok [7; 9] fs then
      Some {| lm_salt := get_bytes 1 fs; lm_S := get_bytes 2 fs; lm_A := get_bytes 3 fs; lm_Yx := get_bytes 4 fs;
              lm_Yy := get_bytes 5 fs; lm_D := get_bytes 6 fs; lm_z1 := get_bytes 7 fs; lm_z2 := get_bytes 8 fs;
              lm_z3 := get_bytes 9 fs |}
      else None
  end.

(** ** Sizes: everything a Go program can hold *)
Definition small (b : bytes) : Prop := Z.of_nat (length b) < 2 ^ 63.
Definition content_ok (c : content) : Prop :=
  Forall field_ok (fields_of c) /\ small (pb_enc (fields_of c)) /\
  match c with CKg2 m => - 2 ^ 31 <= k2_pi m < 2 ^ 31 | _ => True end.

Lemma fbytes_ok n b : 1 <= n <= 536870911 -> small b -> Forall field_ok (fbytes n b).
Proof. intros Hn Hs. unfold fbytes. destruct b; constructor; [split; auto|constructor]. Qed.
Lemma field_ok_fbytes n b : Forall field_ok (fbytes n b) -> small b.
Proof. unfold fbytes. destruct b as [|x b]; intro H; [unfold small; cbn; lia|]. inversion H as [|? ? [_ Hb] ?]. exact Hb. Qed.

(** evaluating getters on concatenations of optional fields *)
Lemma get_bytes_fbytes_same n b acc :
  fold_left (fun acc fv => match fv with (m, WLen b) => if m =? n then b else acc | _ => acc end) (fbytes n b) acc
  = match b with [] => acc | _ => b end.
Proof. destruct b as [|x b]; cbn; [reflexivity|]. rewrite Z.eqb_refl. reflexivity. Qed.
Lemma get_bytes_fbytes_diff n k b acc : n <> k ->
  fold_left (fun acc fv => match fv with (m, WLen b) => if m =? n then b else acc | _ => acc end) (fbytes k b) acc = acc.
Proof. intro H. destruct b as [|x b]; cbn; [reflexivity|]. destruct (Z.eqb_spec k n); [congruence|reflexivity]. Qed.
Lemma get_bytes_fint32 n k v acc :
  fold_left (fun acc fv => match fv with (m, WLen b) => if m =? n then b else acc | _ => acc end) (fint32 k v) acc = acc.
Proof. unfold fint32. destruct (v =? 0); reflexivity. Qed.
Lemma get_bytes_freps_diff n k l acc : n <> k ->
  fold_left (fun acc fv => match fv with (m, WLen b) => if m =? n then b else acc | _ => acc end) (freps k l) acc = acc.
Proof.
  intro H. revert acc; induction l as [|b l IH]; intro acc; cbn; [reflexivity|].
  destruct (Z.eqb_spec k n); [congruence|]. apply IH.
Qed.
Ltac gb := unfold get_bytes; rewrite ?fold_left_app;
  repeat first [ rewrite get_bytes_fbytes_same | rewrite get_bytes_fbytes_diff by lia
               | rewrite get_bytes_fint32 | rewrite get_bytes_freps_diff by lia ].
Lemma nil_default (b : bytes) : match b with [] => [] | _ => b end = b.
Proof. destruct b; reflexivity. Qed.

Lemma get_int32_fbytes n k b acc :
  fold_left (fun acc fv => match fv with (m, WVar v) => if m =? n then to_int32 v else acc | _ => acc end) (fbytes k b) acc = acc.
Proof. destruct b; reflexivity. Qed.
Lemma to_int32_wrap v : - 2 ^ 31 <= v < 2 ^ 31 -> to_int32 (v mod 2 ^ 64) = v.
Proof.
  intro H. unfold to_int32.
  assert (E : (v mod 2 ^ 64) mod 2 ^ 32 = v mod 2 ^ 32).
  { change (2 ^ 64) with (2 ^ 32 * 2 ^ 32). rewrite Z.rem_mul_r by lia.
    rewrite Z.mul_comm, Z_mod_plus_full. apply Z.mod_mod. lia. }
  rewrite E. destruct (Z.ltb_spec (v mod 2 ^ 32) (2 ^ 31)); lia.
Qed.
Lemma get_int32_fint32 n v acc : - 2 ^ 31 <= v < 2 ^ 31 -> acc = 0 ->
  fold_left (fun acc fv => match fv with (m, WVar v) => if m =? n then to_int32 v else acc | _ => acc end) (fint32 n v) acc = v.
Proof.
  intros H ->. unfold fint32. destruct (Z.eqb_spec v 0); [cbn; lia|].
  cbn [fold_left]. rewrite Z.eqb_refl. apply to_int32_wrap; exact H.
Qed.
Lemma get_reps_fbytes n k b : n <> k -> get_reps n (fbytes k b) = [].
Proof. intro H. destruct b; cbn; [reflexivity|]. destruct (Z.eqb_spec k n); [congruence|reflexivity]. Qed.
Lemma get_reps_freps n l : get_reps n (freps n l) = l.
Proof. induction l as [|b l IH]; cbn; [reflexivity|]. rewrite Z.eqb_refl. cbn. f_equal. exact IH. Qed.

Lemma decode_as_ok c : content_ok c -> decode_as (name_of c) (pb_enc (fields_of c)) = Some c.
Proof.
  intros (Hf & Hs & Hp). unfold decode_as. rewrite pb_roundtrip by exact Hf.
  destruct c as [v|m|s ms p|k|e|x y l|s]; cbn [name_of].
  - change (bytes_eqb n_kg1 n_kg1) with true. cbn [fields_of]. gb. rewrite nil_default. reflexivity.
  - change (bytes_eqb n_kg2 n_kg1) with false. change (bytes_eqb n_kg2 n_kg2) with true.
    cbn [fields_of]. unfold get_int32. gb. rewrite !nil_default.
    rewrite ?fold_left_app, ?get_int32_fbytes, get_int32_fint32, ?get_int32_fbytes by auto.
    destruct m; reflexivity.
  - change (bytes_eqb n_kg3 n_kg1) with false. change (bytes_eqb n_kg3 n_kg2) with false.
    change (bytes_eqb n_kg3 n_kg3) with true. cbn [fields_of].
    unfold get_reps. rewrite !flat_map_app. fold (get_reps 2 (fbytes 1 s)). fold (get_reps 2 (freps 2 ms)).
    fold (get_reps 2 (fbytes 3 p)). rewrite !get_reps_fbytes, get_reps_freps by lia.
    cbn [app]. rewrite app_nil_r. gb. rewrite !nil_default. reflexivity.
  - change (bytes_eqb n_s11 n_kg1) with false. change (bytes_eqb n_s11 n_kg2) with false.
    change (bytes_eqb n_s11 n_kg3) with false. change (bytes_eqb n_s11 n_s11) with true.
    cbn [fields_of]. gb. rewrite nil_default. reflexivity.
  - change (bytes_eqb n_s12 n_kg1) with false. change (bytes_eqb n_s12 n_kg2) with false.
    change (bytes_eqb n_s12 n_kg3) with false. change (bytes_eqb n_s12 n_s11) with false.
    change (bytes_eqb n_s12 n_s12) with true. cbn [fields_of]. gb. rewrite nil_default. reflexivity.
  - change (bytes_eqb n_s2 n_kg1) with false. change (bytes_eqb n_s2 n_kg2) with false.
    change (bytes_eqb n_s2 n_kg3) with false. change (bytes_eqb n_s2 n_s11) with false.
    change (bytes_eqb n_s2 n_s12) with false. change (bytes_eqb n_s2 n_s2) with true.
    cbn [fields_of]. gb. rewrite !nil_default. reflexivity.
  - change (bytes_eqb n_s3 n_kg1) with false. change (bytes_eqb n_s3 n_kg2) with false.
    change (bytes_eqb n_s3 n_kg3) with false. change (bytes_eqb n_s3 n_s11) with false.
    change (bytes_eqb n_s3 n_s12) with false. change (bytes_eqb n_s3 n_s2) with false.
    change (bytes_eqb n_s3 n_s3) with true. cbn [fields_of]. gb. rewrite nil_default. reflexivity.
Qed.

Lemma strings_ok_app ns a b : strings_ok ns (a ++ b) = strings_ok ns a && strings_ok ns b.
Proof. apply forallb_app. Qed.
Lemma strings_ok_fbytes_in ns n b : utf8_valid b = true -> strings_ok ns (fbytes n b) = true.
Proof. intro H. destruct b as [|x b]; [reflexivity|]. cbn -[utf8_valid existsb]. destruct (existsb _ ns); [rewrite H|]; reflexivity. Qed.
Lemma strings_ok_fbytes_out ns n b : existsb (Z.eqb n) ns = false -> strings_ok ns (fbytes n b) = true.
Proof. intro H. destruct b as [|x b]; [reflexivity|]. cbn -[utf8_valid existsb]. rewrite H. reflexivity. Qed.

Lemma url_of_name c : let url := type_prefix ++ name_of c in
  utf8_valid url = true /\ last_component url = name_of c /\ url <> [] /\ small url.
Proof.
  destruct c; cbn [name_of]; (split; [vm_compute; reflexivity|]); (split; [vm_compute; reflexivity|]);
    (split; [discriminate|]); unfold small; vm_compute; reflexivity.
Qed.

Theorem parse_wire_bytes c : content_ok c -> parse_wire (wire_bytes c) = Some c.
Proof.
  intro Hc. pose proof (decode_as_ok c Hc) as HD. destruct Hc as (Hf & Hs & Hp).
  destruct (url_of_name c) as (Hu & Hl & Hne & Hsm).
  unfold parse_wire, wire_bytes, any_enc.
  rewrite pb_roundtrip by (apply Forall_app; split; apply fbytes_ok; try lia; assumption).
  rewrite strings_ok_app, strings_ok_fbytes_in by exact Hu.
  rewrite strings_ok_fbytes_out by reflexivity. cbn [andb].
  gb.
  destruct (type_prefix ++ name_of c) as [|u us] eqn:E; [congruence|]. rewrite <- E in *. clear E u us.
  rewrite Hl. rewrite nil_default. exact HD.
Qed.

Lemma wire_bytes_nonempty c : wire_bytes c <> [].
Proof. destruct c; discriminate. Qed.

Lemma encmsg_roundtrip m :
  Forall small [em_salt m; em_S m; em_A m; em_C m; em_z1 m; em_z2 m; em_z3 m] ->
  utf8_valid (em_z1 m) = true -> utf8_valid (em_z3 m) = true -> encmsg_dec (encmsg_enc m) = Some m.
Proof.
  intros H H1 H3. rewrite !Forall_cons_iff in H.
  unfold encmsg_dec, encmsg_enc.
  rewrite pb_roundtrip by (rewrite !Forall_app; repeat split; apply fbytes_ok; try lia; tauto).
  rewrite !strings_ok_app, !(strings_ok_fbytes_in _ _ (em_z1 m)), !(strings_ok_fbytes_in _ _ (em_z3 m)) by assumption.
  rewrite !strings_ok_fbytes_out by reflexivity. cbn [andb].
  gb. rewrite !nil_default. destruct m; reflexivity.
Qed.
Lemma logmsg_roundtrip m :
  Forall small [lm_salt m; lm_S m; lm_A m; lm_Yx m; lm_Yy m; lm_D m; lm_z1 m; lm_z2 m; lm_z3 m] ->
  utf8_valid (lm_z1 m) = true -> utf8_valid (lm_z3 m) = true -> logmsg_dec (logmsg_enc m) = Some m.
Proof.
  intros H H1 H3. rewrite !Forall_cons_iff in H.
  unfold logmsg_dec, logmsg_enc.
  rewrite pb_roundtrip by (rewrite !Forall_app; repeat split; apply fbytes_ok; try lia; tauto).
  rewrite !strings_ok_app, !(strings_ok_fbytes_in _ _ (lm_z1 m)), !(strings_ok_fbytes_in _ _ (lm_z3 m)) by assumption.
  rewrite !strings_ok_fbytes_out by reflexivity. cbn [andb].
  gb. rewrite !nil_default. destruct m; reflexivity.
Qed.

(** ** Handy sufficient conditions: every field at most 2^40 bytes *)
Definition tiny (b : bytes) : Prop := Z.of_nat (length b) <= 2 ^ 40.
Lemma tiny_small b : tiny b -> small b.
Proof. unfold tiny, small. intro. assert (2 ^ 40 < 2 ^ 63) by reflexivity. lia. Qed.
Lemma tiny_nil : tiny []. Proof. vm_compute. discriminate. Qed.
Lemma venc_len z : (length (venc z) <= 10)%nat.
Proof.
  unfold venc. assert (G : forall k z, (length (venc_f k z) <= S k)%nat).
  { induction k as [|k IH]; intro y; cbn [venc_f]; [cbn; lia|]. destruct (y <? 128); cbn [length]; [lia|].
    specialize (IH (y / 128)). lia. }
  apply G.
Qed.
Lemma pb_enc_app a b : pb_enc (a ++ b) = pb_enc a ++ pb_enc b.
Proof. unfold pb_enc. rewrite flat_map_app. reflexivity. Qed.
Lemma pb_fbytes_len k b : Z.of_nat (length (pb_enc (fbytes k b))) <= 20 + Z.of_nat (length b).
Proof.
  unfold fbytes. destruct b as [|c b]; [cbn; lia|]. cbn [pb_enc flat_map]. rewrite app_nil_r.
  unfold field_enc. cbn [fst snd]. rewrite !app_length.
  match goal with |- context [venc ?x] => pose proof (venc_len x) end.
  match goal with |- context [venc (Z.of_nat ?x)] => pose proof (venc_len (Z.of_nat x)) end. lia.
Qed.
Lemma pb_fint32_len k v : Z.of_nat (length (pb_enc (fint32 k v))) <= 20.
Proof.
  unfold fint32. destruct (v =? 0); [cbn; lia|]. cbn [pb_enc flat_map]. rewrite app_nil_r.
  unfold field_enc. cbn [fst snd]. rewrite !app_length.
  match goal with |- context [(length (venc ?x) + length (venc ?y))%nat] => pose proof (venc_len x); pose proof (venc_len y) end. lia.
Qed.
Ltac content_tiny :=
  unfold content_ok, fields_of; rewrite ?app_nil_r;
  split; [rewrite ?Forall_app; repeat split; first [apply fbytes_ok; [lia|apply tiny_small; assumption] | idtac]|
  split; [unfold small; rewrite ?pb_enc_app, ?app_length, ?Nat2Z.inj_add;
          repeat match goal with |- context [length (pb_enc (fbytes ?k ?b))] => pose proof (pb_fbytes_len k b); generalize dependent (length (pb_enc (fbytes k b))); intros end;
          repeat match goal with |- context [length (pb_enc (fint32 ?k ?b))] => pose proof (pb_fint32_len k b); generalize dependent (length (pb_enc (fint32 k b))); intros end;
          unfold tiny in *; assert (2 ^ 40 * 20 + 10000 < 2 ^ 63) by reflexivity; try lia|]].
Lemma ok_kg1 v : tiny v -> content_ok (CKg1 v).
Proof. intros. content_tiny. exact I. Qed.
Lemma ok_kg2 m : k2_pi m = 0 -> tiny (k2_ssid m) -> tiny (k2_srid m) -> tiny (k2_xx m) -> tiny (k2_xy m) ->
  tiny (k2_ax m) -> tiny (k2_ay m) -> tiny (k2_u m) -> tiny (k2_pn m) -> tiny (k2_ps m) -> tiny (k2_pt m) -> content_ok (CKg2 m).
Proof. intro E. intros. content_tiny; [rewrite E; constructor|rewrite E; lia]. Qed.
Lemma ok_kg3 s : tiny s -> content_ok (CKg3 s [] []).
Proof. intros. pose proof tiny_nil. cbn [freps map] in *. content_tiny. all: try constructor. Qed.
Lemma ok_s11 v : tiny v -> content_ok (CS11 v).
Proof. intros. content_tiny. exact I. Qed.
Lemma ok_s12 v : tiny v -> content_ok (CS12 v).
Proof. intros. content_tiny. exact I. Qed.
Lemma ok_s2 a b c : tiny a -> tiny b -> tiny c -> content_ok (CS2 a b c).
Proof. intros. content_tiny. exact I. Qed.
Lemma ok_s3 v : tiny v -> content_ok (CS3 v).
Proof. intros. content_tiny. exact I. Qed.
