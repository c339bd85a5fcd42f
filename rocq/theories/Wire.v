(** Wire.v -- protobuf wire format as used by tss/message.go 135-141 (WireBytes) and
    tss/wire.go 23-45 (ParseWireMsg).

    Models the google.golang.org/protobuf encoder/decoder for the message shapes of this repo:
    varints (ConsumeVarint: at most 10 bytes, 64-bit), tags, length-delimited values, skipping of
    unknown fields including groups, UTF-8 validation of proto3 strings.
    Simplifications: unknown fields are dropped instead of retained for re-encoding; the group
    nesting limit (10000) is not modelled. *)
From Verif Require Import Base BigInt.

(** protowire.AppendVarint for a uint64 *)
Fixpoint venc_f (fuel : nat) (z : Z) : bytes :=
  match fuel with
  | O => [zb z]
  | S f => if z <? 128 then [zb z] else zb (128 + z mod 128) :: venc_f f (z / 128)
  end.
Definition venc (z : Z) : bytes := venc_f 9 z.

(** protowire.ConsumeVarint: [k] bytes still allowed; the 10th byte must be < 2 *)
Fixpoint vdec_f (k : nat) (l : bytes) : option (Z * bytes) :=
  match k, l with
  | O, _ => None
  | _, [] => None
  | S k', b :: r =>
      if bz b <? 128
      then (if (Nat.eqb k' 0) && (2 <=? bz b) then None else Some (bz b, r))
      else match k' with
           | O => None
           | _ => match vdec_f k' r with
                  | Some (v, r') => Some ((bz b - 128) + 128 * v, r')
                  | None => None
                  end
           end
  end.
Definition vdec (l : bytes) : option (Z * bytes) := vdec_f 10 l.

(** A decoded field value. *)
Inductive wval :=
| WVar (v : Z)        (* wire type 0 *)
| WF64 (b : bytes)    (* wire type 1 *)
| WLen (b : bytes)    (* wire type 2 *)
| WGrp                (* wire types 3/4, skipped *)
| WF32 (b : bytes).   (* wire type 5 *)

Definition take (n : nat) (l : bytes) : option (bytes * bytes) :=
  if (n <=? length l)%nat then Some (firstn n l, skipn n l) else None.

(** protowire.ConsumeTag + range check of the field number (1 .. 2^29-1) *)
Definition tag_dec (l : bytes) : option (Z * Z * bytes) :=
  match vdec l with
  | Some (t, r) => let num := t / 8 in
                   if (1 <=? num) && (num <=? 536870911) then Some (num, t mod 8, r) else None
  | None => None
  end.

(** protowire.ConsumeFieldValue *)
Fixpoint val_dec (fuel : nat) (num typ : Z) (l : bytes) : option (wval * bytes) :=
  match fuel with
  | O => None
  | S f =>
    if typ =? 0 then match vdec l with Some (v, r) => Some (WVar v, r) | None => None end
    else if typ =? 1 then match take 8 l with Some (b, r) => Some (WF64 b, r) | None => None end
    else if typ =? 2 then
      match vdec l with
      | Some (n, r) => if n <=? Z.of_nat (length r)
                       then match take (Z.to_nat n) r with Some (b, r') => Some (WLen b, r') | None => None end
                       else None
      | None => None
      end
    else if typ =? 3 then
      (fix grp (g : nat) (l : bytes) : option (wval * bytes) :=
         match g with
         | O => None
         | S g' => match tag_dec l with
                   | Some (num2, typ2, r) =>
                       if typ2 =? 4 then (if num2 =? num then Some (WGrp, r) else None)
                       else match val_dec f num2 typ2 r with
                            | Some (_, r') => grp g' r'
                            | None => None
                            end
                   | None => None
                   end
         end) (S (length l)) l
    else if typ =? 5 then match take 4 l with Some (b, r) => Some (WF32 b, r) | None => None end
    else None
  end.

(** top-level message decoding loop (impl.unmarshalPointer): list of (number, value) *)
Fixpoint fields_dec (fuel : nat) (l : bytes) : option (list (Z * wval)) :=
  match l with
  | [] => Some []
  | _ =>
    match fuel with
    | O => None
    | S f =>
      match tag_dec l with
      | Some (num, typ, r) =>
          match val_dec (S (length r)) num typ r with
          | Some (v, r') => match fields_dec f r' with Some fs => Some ((num, v) :: fs) | None => None end
          | None => None
          end
      | None => None
      end
    end
  end.
Definition pb_dec (l : bytes) : option (list (Z * wval)) := fields_dec (length l) l.

(** encoding of the two value kinds this repo's messages use *)
Definition field_enc (fv : Z * wval) : bytes :=
  match snd fv with
  | WVar v => venc (fst fv * 8) ++ venc v
  | WLen b => venc (fst fv * 8 + 2) ++ venc (Z.of_nat (length b)) ++ b
  | _ => []
  end.
Definition pb_enc (fs : list (Z * wval)) : bytes := flat_map field_enc fs.

(** ** Round trip *)
Lemma vdec_f_cont k b r : 128 <= bz b ->
  vdec_f (S (S k)) (b :: r) =
  match vdec_f (S k) r with Some (v, r') => Some ((bz b - 128) + 128 * v, r') | None => None end.
Proof. intro H. cbn [vdec_f]. destruct (Z.ltb_spec (bz b) 128); [lia|reflexivity]. Qed.

Lemma venc_dec_f k : forall z r, 0 <= z < 2 ^ (7 * Z.of_nat k + 1) -> 
  vdec_f (S k) (venc_f k z ++ r) = Some (z, r).
Proof.
  induction k as [|k IH]; intros z r H.
  - change (2 ^ (7 * Z.of_nat 0 + 1)) with 2 in H.
    cbn [venc_f app vdec_f]. rewrite bz_zb_small by lia.
    destruct (Z.ltb_spec z 128); [|lia]. destruct (Z.leb_spec 2 z); [lia|]. reflexivity.
  - cbn [venc_f]. destruct (Z.ltb_spec z 128).
    + cbn [app vdec_f]. rewrite bz_zb_small by lia.
      destruct (Z.ltb_spec z 128); [|lia]. reflexivity.
    + cbn [app]. rewrite vdec_f_cont by (rewrite bz_zb_small; lia). rewrite bz_zb_small by lia.
      rewrite IH.
      * f_equal. f_equal. lia.
      * replace (7 * Z.of_nat (S k) + 1) with (7 + (7 * Z.of_nat k + 1)) in H by lia.
        rewrite Z.pow_add_r in H by lia. change (2 ^ 7) with 128 in H. lia.
Qed.
Lemma vdec_venc z r : 0 <= z < 2 ^ 64 -> vdec (venc z ++ r) = Some (z, r).
Proof. intro H. apply venc_dec_f. exact H. Qed.

Lemma tag_dec_enc num typ r : 1 <= num <= 536870911 -> 0 <= typ < 8 ->
  tag_dec (venc (num * 8 + typ) ++ r) = Some (num, typ, r).
Proof.
  intros Hn Ht. unfold tag_dec. rewrite vdec_venc by lia.
  replace ((num * 8 + typ) / 8) with num by lia.
  destruct (Z.leb_spec 1 num); [|lia]. destruct (Z.leb_spec num 536870911); [|lia].
  cbn [andb]. do 3 f_equal. lia.
Qed.

Definition field_ok (fv : Z * wval) : Prop :=
  1 <= fst fv <= 536870911 /\
  match snd fv with
  | WVar v => 0 <= v < 2 ^ 64
  | WLen b => Z.of_nat (length b) < 2 ^ 63
  | _ => False
  end.

Lemma take_app b r : take (length b) (b ++ r) = Some (b, r).
Proof.
  unfold take. rewrite app_length. destruct (Nat.leb_spec (length b) (length b + length r)); [|lia].
  rewrite firstn_app, Nat.sub_diag, firstn_all, skipn_app, skipn_all, Nat.sub_diag. cbn.
  rewrite app_nil_r. reflexivity.
Qed.

Lemma venc_nonempty z : venc z <> [].
Proof. unfold venc. cbn [venc_f]. destruct (z <? 128); discriminate. Qed.

Lemma field_dec_enc fv r f : field_ok fv ->
  exists num typ rest,
    tag_dec (field_enc fv ++ r) = Some (num, typ, rest) /\
    num = fst fv /\ val_dec (S f) num typ rest = Some (snd fv, r).
Proof.
  destruct fv as [num v]. unfold field_ok, field_enc. cbn [fst snd]. intros [Hn Hv].
  destruct v as [v|b|b| |b]; try contradiction.
  - exists num, 0, (venc v ++ r). rewrite <- app_assoc.
    replace (num * 8) with (num * 8 + 0) by lia. rewrite tag_dec_enc by lia.
    split; [reflexivity|split; [reflexivity|]]. cbn [val_dec Z.eqb]. rewrite vdec_venc by lia. reflexivity.
  - exists num, 2, (venc (Z.of_nat (length b)) ++ b ++ r). rewrite <- !app_assoc.
    rewrite tag_dec_enc by lia. split; [reflexivity|split; [reflexivity|]].
    cbn [val_dec Z.eqb]. rewrite vdec_venc by lia.
    rewrite app_length. destruct (Z.leb_spec (Z.of_nat (length b)) (Z.of_nat (length b + length r))); [|lia].
    rewrite Nat2Z.id, take_app. reflexivity.
Qed.

Lemma field_enc_nonempty fv : field_ok fv -> field_enc fv <> [].
Proof.
  destruct fv as [num v]. unfold field_ok, field_enc. cbn [fst snd]. intros [_ H].
  destruct v; try contradiction; intro E; apply app_eq_nil in E; destruct E as [E _]; eapply venc_nonempty; exact E.
Qed.

Lemma fields_dec_enc fs : Forall field_ok fs ->
  forall fuel, (length (pb_enc fs) <= fuel)%nat -> fields_dec fuel (pb_enc fs) = Some fs.
Proof.
  induction fs as [|fv fs IH]; intros Hf fuel HL; [destruct fuel; reflexivity|].
  inversion Hf as [|? ? Hfv Hfs]; subst.
  pose proof (field_enc_nonempty fv Hfv) as Hne.
  cbn [pb_enc flat_map] in HL |- *. fold (pb_enc fs) in HL |- *. rewrite app_length in HL.
  destruct (field_enc fv) as [|c cs] eqn:E; [congruence|].
  destruct fuel as [|fuel]; [simpl in HL; lia|].
  cbn [app fields_dec].
  change (c :: cs ++ pb_enc fs) with ((c :: cs) ++ pb_enc fs). rewrite <- E.
  destruct (field_dec_enc fv (pb_enc fs) 0 Hfv) as (num & typ & rest & HT & -> & _).
  rewrite HT.
  destruct (field_dec_enc fv (pb_enc fs) (length rest) Hfv) as (num' & typ' & rest' & HT' & _ & HV).
  rewrite HT in HT'. inversion HT'; subst num' typ' rest'. rewrite HV.
  rewrite IH; [|assumption|simpl in HL; lia]. destruct fv; reflexivity.
Qed.

Lemma pb_roundtrip fs : Forall field_ok fs -> pb_dec (pb_enc fs) = Some fs.
Proof. intro H. apply fields_dec_enc; [assumption|lia]. Qed.

(** ** Field access (generated setters/getters: the last value of a singular field wins;
    a value with an unexpected wire type is treated as an unknown field) *)
Definition get_bytes (n : Z) (fs : list (Z * wval)) : bytes :=
  fold_left (fun acc fv => match fv with (m, WLen b) => if m =? n then b else acc | _ => acc end) fs [].
Definition get_reps (n : Z) (fs : list (Z * wval)) : list bytes :=
  flat_map (fun fv => match fv with (m, WLen b) => if m =? n then [b] else [] | _ => [] end) fs.
(** int32 field: varint truncated to 32 bits, two's complement *)
Definition to_int32 (v : Z) : Z := let w := v mod 2 ^ 32 in if w <? 2 ^ 31 then w else w - 2 ^ 32.
Definition get_int32 (n : Z) (fs : list (Z * wval)) : Z :=
  fold_left (fun acc fv => match fv with (m, WVar v) => if m =? n then to_int32 v else acc | _ => acc end) fs 0.

(** proto3 implicit presence: empty bytes / zero ints are not written *)
Definition fbytes (n : Z) (b : bytes) : list (Z * wval) := match b with [] => [] | _ => [(n, WLen b)] end.
Definition fint32 (n : Z) (v : Z) : list (Z * wval) := if v =? 0 then [] else [(n, WVar (v mod 2 ^ 64))].
Definition freps (n : Z) (l : list bytes) : list (Z * wval) := map (fun b => (n, WLen b)) l.

(** Go utf8.Valid *)
Definition cont (b : byte) : bool := (128 <=? bz b) && (bz b <=? 191).
Fixpoint utf8_valid_f (fuel : nat) (s : bytes) : bool :=
  match s with
  | [] => true
  | a :: r =>
    match fuel with
    | O => false
    | S f =>
      let z := bz a in
      if z <? 128 then utf8_valid_f f r
      else if (194 <=? z) && (z <=? 223) then
        match r with b :: r' => cont b && utf8_valid_f f r' | _ => false end
      else if (224 <=? z) && (z <=? 239) then
        match r with
        | b :: c :: r' =>
            cont b && cont c && (if z =? 224 then 160 <=? bz b else true)
            && (if z =? 237 then bz b <=? 159 else true) && utf8_valid_f f r'
        | _ => false
        end
      else if (240 <=? z) && (z <=? 244) then
        match r with
        | b :: c :: d :: r' =>
            cont b && cont c && cont d && (if z =? 240 then 144 <=? bz b else true)
            && (if z =? 244 then bz b <=? 143 else true) && utf8_valid_f f r'
        | _ => false
        end
      else false
    end
  end.
Definition utf8_valid (s : bytes) : bool := utf8_valid_f (length s) s.

Lemma utf8_ascii s : Forall (fun b => bz b < 128) s -> utf8_valid s = true.
Proof.
  intro H. unfold utf8_valid. induction H as [|a s Ha Hs IH]; [reflexivity|].
  cbn [length utf8_valid_f]. destruct (Z.ltb_spec (bz a) 128); [exact IH|lia].
Qed.

(** all occurrences of a string field are validated while decoding *)
Definition strings_ok (ns : list Z) (fs : list (Z * wval)) : bool :=
  forallb (fun fv => match fv with
                     | (m, WLen b) => if existsb (Z.eqb m) ns then utf8_valid b else true
                     | _ => true end) fs.

Lemma get_bytes_app n a b : get_bytes n (a ++ b) =
  fold_left (fun acc fv => match fv with (m, WLen b) => if m =? n then b else acc | _ => acc end) b (get_bytes n a).
Proof. unfold get_bytes. apply fold_left_app. Qed.
