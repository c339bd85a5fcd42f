(** Text.v -- the Go text codecs used at the API boundary.

    Models library functions as used in /repo:
    [strings.Split] (eddsa.go 43, eddsacmp/keygen/local_party.go 137, eddsacmp/onsign/local_party.go 122),
    [hex.DecodeString/EncodeToString] (keygen/local_party.go 91, onsign/local_party.go 156,192, save_data.go 65),
    [base64.StdEncoding.DecodeString/EncodeToString] (all Accept functions; onsign/local_party.go 106),
    [big.Int.SetString] (keygen/local_party.go 84, 144), [strconv.Itoa] (keygen/round_1.go 68),
    [strconv.Atoi] (crypto/ckd). *)
From Verif Require Import Base BigInt.

(** strings.Split(s, sep) for a one-byte separator *)
Fixpoint split (sep : byte) (s : bytes) : list bytes :=
  match s with
  | [] => [[]]
  | c :: r => if byte_eqb c sep then [] :: split sep r
              else match split sep r with
                   | [] => [[c]]
                   | p :: ps => (c :: p) :: ps
                   end
  end.

Fixpoint join (sep : byte) (l : list bytes) : bytes :=
  match l with
  | [] => []
  | [p] => p
  | p :: ps => p ++ sep :: join sep ps
  end.

Lemma split_nonempty sep s : split sep s <> [].
Proof. destruct s as [|c s]; simpl; [discriminate|]. destruct (byte_eqb c sep); [discriminate|]. destruct (split sep s); discriminate. Qed.

Lemma split_nosep sep p : ~ In sep p -> split sep p = [p].
Proof.
  induction p as [|c p IH]; intro H; [reflexivity|]. simpl.
  destruct (byte_eqb_spec c sep) as [->|N]; [exfalso; apply H; left; reflexivity|].
  rewrite IH; [reflexivity|]. intro; apply H; right; assumption.
Qed.

Lemma split_app_sep sep p r : ~ In sep p -> split sep (p ++ sep :: r) = p :: split sep r.
Proof.
  induction p as [|c p IH]; intro H.
  - simpl. rewrite byte_eqb_refl. reflexivity.
  - simpl. destruct (byte_eqb_spec c sep) as [->|N]; [exfalso; apply H; left; reflexivity|].
    rewrite IH; [reflexivity|]. intro; apply H; right; assumption.
Qed.

Lemma split_join sep l : l <> [] -> Forall (fun p => ~ In sep p) l -> split sep (join sep l) = l.
Proof.
  induction l as [|p l IH]; intros Hn Hf; [congruence|].
  inversion Hf; subst. destruct l as [|q l].
  - simpl. apply split_nosep; assumption.
  - change (join sep (p :: q :: l)) with (p ++ sep :: join sep (q :: l)).
    rewrite split_app_sep by assumption. f_equal. apply IH; [discriminate|assumption].
Qed.

Lemma join_split sep s : join sep (split sep s) = s.
Proof.
  induction s as [|c s IH]; [reflexivity|]. simpl.
  destruct (byte_eqb_spec c sep) as [->|N].
  - pose proof (split_nonempty sep s). destruct (split sep s) as [|p ps]; [congruence|].
    change (join sep ([] :: p :: ps)) with (sep :: join sep (p :: ps)). rewrite IH. reflexivity.
  - destruct (split sep s) as [|p ps] eqn:E; [exfalso; eapply split_nonempty; exact E|].
    destruct ps; simpl in *; rewrite <- IH; reflexivity.
Qed.

(** ** hex *)
Definition hexdig (c : byte) : option Z :=
  let z := bz c in
  if (48 <=? z) && (z <=? 57) then Some (z - 48)
  else if (97 <=? z) && (z <=? 102) then Some (z - 87)
  else if (65 <=? z) && (z <=? 70) then Some (z - 55)
  else None.
(** hex.DecodeString; [None] is the error return (bad character or odd length) *)
Fixpoint hex_dec (s : bytes) : option bytes :=
  match s with
  | [] => Some []
  | [_] => None
  | a :: b :: r =>
      match hexdig a, hexdig b, hex_dec r with
      | Some x, Some y, Some t => Some (zb (16 * x + y) :: t)
      | _, _, _ => None
      end
  end.
Definition hexchr (d : Z) : byte := zb (if d <? 10 then 48 + d else 87 + d).
(** hex.EncodeToString *)
Definition hex_enc (l : bytes) : bytes := flat_map (fun b => [hexchr (bz b / 16); hexchr (bz b mod 16)]) l.

Lemma hexdig_chr d : 0 <= d < 16 -> hexdig (hexchr d) = Some d.
Proof.
  intro H. unfold hexdig, hexchr.
  rewrite bz_zb_small by (destruct (d <? 10) eqn:?; lia).
  destruct (Z.ltb_spec d 10).
  - replace ((48 <=? 48 + d) && (48 + d <=? 57)) with true by lia. f_equal; lia.
  - replace ((48 <=? 87 + d) && (87 + d <=? 57)) with false by lia.
    replace ((97 <=? 87 + d) && (87 + d <=? 102)) with true by lia. f_equal; lia.
Qed.

Lemma hex_roundtrip l : hex_dec (hex_enc l) = Some l.
Proof.
  induction l as [|b l IH]; [reflexivity|].
  change (hex_enc (b :: l)) with (hexchr (bz b / 16) :: hexchr (bz b mod 16) :: hex_enc l).
  cbn [hex_dec]. pose proof (bz_range b).
  rewrite !hexdig_chr by lia. rewrite IH. do 2 f_equal.
  replace (16 * (bz b / 16) + bz b mod 16) with (bz b) by lia. apply zb_bz.
Qed.

Lemma hex_enc_inj a b : hex_enc a = hex_enc b -> a = b.
Proof. intro H. apply (f_equal hex_dec) in H. rewrite !hex_roundtrip in H. congruence. Qed.

Lemma hex_dec_length s l : hex_dec s = Some l -> length s = (2 * length l)%nat.
Proof.
  revert l. induction s as [s IH] using (well_founded_induction (well_founded_ltof _ (@length byte))).
  intros l H. destruct s as [|a [|b r]]; simpl in H.
  - inversion H; reflexivity.
  - discriminate.
  - destruct (hexdig a), (hexdig b), (hex_dec r) as [t|] eqn:E; try discriminate.
    inversion H; subst. apply IH in E; [|unfold ltof; simpl; lia]. simpl. lia.
Qed.

(** ** base64 (StdEncoding, padded) *)
Definition b64chr (d : Z) : byte :=
  zb (if d <? 26 then 65 + d else if d <? 52 then 71 + d else if d <? 62 then d - 4
      else if d =? 62 then 43 else 47).
Definition b64val (c : byte) : option Z :=
  let z := bz c in
  if (65 <=? z) && (z <=? 90) then Some (z - 65)
  else if (97 <=? z) && (z <=? 122) then Some (z - 71)
  else if (48 <=? z) && (z <=? 57) then Some (z + 4)
  else if z =? 43 then Some 62 else if z =? 47 then Some 63 else None.
Definition padc : byte := zb 61.

(** EncodeToString *)
Fixpoint b64_enc (l : bytes) : bytes :=
  match l with
  | [] => []
  | [a] => [b64chr (bz a / 4); b64chr (bz a mod 4 * 16); padc; padc]
  | [a; b] => [b64chr (bz a / 4); b64chr (bz a mod 4 * 16 + bz b / 16); b64chr (bz b mod 16 * 4); padc]
  | a :: b :: c :: r =>
      b64chr (bz a / 4) :: b64chr (bz a mod 4 * 16 + bz b / 16)
      :: b64chr (bz b mod 16 * 4 + bz c / 64) :: b64chr (bz c mod 64) :: b64_enc r
  end.

(** DecodeString after newline removal.  Non-strict: unused trailing bits are ignored, as in Go. *)
Fixpoint b64_dec_clean (s : bytes) : option bytes :=
  match s with
  | [] => Some []
  | a :: b :: c :: d :: r =>
      match b64val a, b64val b with
      | Some x, Some y =>
          match b64val c, b64val d with
          | Some z, Some w =>
              match b64_dec_clean r with
              | Some t => Some (zb (x * 4 + y / 16) :: zb (y * 16 + z / 4) :: zb (z * 64 + w) :: t)
              | None => None
              end
          | Some z, None =>
              if byte_eqb d padc then match r with [] => Some [zb (x * 4 + y / 16); zb (y * 16 + z / 4)] | _ => None end
              else None
          | None, _ =>
              if byte_eqb c padc && byte_eqb d padc then match r with [] => Some [zb (x * 4 + y / 16)] | _ => None end
              else None
          end
      | _, _ => None
      end
  | _ => None
  end.
(** base64.StdEncoding.DecodeString: '\r' and '\n' are skipped *)
Definition is_nl (c : byte) : bool := (bz c =? 13) || (bz c =? 10).
Definition b64_dec (s : bytes) : option bytes := b64_dec_clean (filter (fun c => negb (is_nl c)) s).

Lemma b64val_chr d : 0 <= d < 64 -> b64val (b64chr d) = Some d.
Proof.
  intro H. unfold b64val, b64chr.
  destruct (Z.ltb_spec d 26); [|destruct (Z.ltb_spec d 52); [|destruct (Z.ltb_spec d 62);
    [|destruct (Z.eqb_spec d 62)]]]; rewrite bz_zb_small by lia.
  - replace ((65 <=? 65 + d) && (65 + d <=? 90)) with true by lia. f_equal; lia.
  - replace ((65 <=? 71 + d) && (71 + d <=? 90)) with false by lia.
    replace ((97 <=? 71 + d) && (71 + d <=? 122)) with true by lia. f_equal; lia.
  - replace ((65 <=? d - 4) && (d - 4 <=? 90)) with false by lia.
    replace ((97 <=? d - 4) && (d - 4 <=? 122)) with false by lia.
    replace ((48 <=? d - 4) && (d - 4 <=? 57)) with true by lia. f_equal; lia.
  - subst; reflexivity.
  - assert (d = 63) by lia. subst; reflexivity.
Qed.
Lemma is_nl_chr d : 0 <= d < 64 -> is_nl (b64chr d) = false.
Proof.
  intro H. unfold is_nl, b64chr.
  destruct (Z.ltb_spec d 26); [|destruct (Z.ltb_spec d 52); [|destruct (Z.ltb_spec d 62);
    [|destruct (Z.eqb_spec d 62)]]]; rewrite bz_zb_small by lia; lia.
Qed.
Lemma b64val_pad : b64val padc = None. Proof. reflexivity. Qed.

Lemma bytes_ind3 (P : bytes -> Prop) :
  P [] -> (forall a, P [a]) -> (forall a b, P [a; b]) ->
  (forall a b c r, P r -> P (a :: b :: c :: r)) -> forall l, P l.
Proof.
  intros H0 H1 H2 H3 l.
  induction l as [l IH] using (well_founded_induction (well_founded_ltof _ (@length byte))).
  destruct l as [|a [|b [|c r]]]; auto. apply H3. apply IH. unfold ltof; simpl; lia.
Qed.

Ltac b64range := match goal with |- 0 <= _ < 64 =>
  repeat match goal with b : byte |- _ => let H := fresh in pose proof (bz_range b) as H; revert b H end; intros; lia end.

Lemma b64_enc_clean l : filter (fun c => negb (is_nl c)) (b64_enc l) = b64_enc l.
Proof.
  induction l as [|a|a b|a b c r IH] using bytes_ind3; [reflexivity|..].
  - pose proof (bz_range a). cbn [b64_enc filter]. rewrite !is_nl_chr by lia. reflexivity.
  - pose proof (bz_range a). pose proof (bz_range b). cbn [b64_enc filter]. rewrite !is_nl_chr by lia. reflexivity.
  - pose proof (bz_range a). pose proof (bz_range b). pose proof (bz_range c).
    cbn [b64_enc filter]. rewrite !is_nl_chr by lia. cbn [negb]. rewrite IH. reflexivity.
Qed.

Lemma zb_eq z b : (z - bz b) mod 256 = 0 -> zb z = b.
Proof. intro H. apply bz_inj. rewrite bz_zb. pose proof (bz_range b). lia. Qed.

Lemma b64_roundtrip l : b64_dec (b64_enc l) = Some l.
Proof.
  unfold b64_dec. rewrite b64_enc_clean.
  induction l as [|a|a b|a b c r IH] using bytes_ind3; [reflexivity|..].
  - pose proof (bz_range a). cbn [b64_enc b64_dec_clean]. rewrite !b64val_chr by lia.
    rewrite b64val_pad, byte_eqb_refl. cbn [andb]. do 2 f_equal. apply zb_eq. lia.
  - pose proof (bz_range a). pose proof (bz_range b). cbn [b64_enc b64_dec_clean].
    rewrite !b64val_chr by lia. rewrite b64val_pad, byte_eqb_refl.
    f_equal. f_equal; [|f_equal]; apply zb_eq; lia.
  - pose proof (bz_range a). pose proof (bz_range b). pose proof (bz_range c).
    cbn [b64_enc b64_dec_clean]. rewrite !b64val_chr by lia. rewrite IH.
    f_equal. f_equal; [|f_equal; [|f_equal]]; apply zb_eq; lia.
Qed.

(** newlines inserted anywhere in the text do not matter *)
Lemma b64_dec_newlines s1 s2 c : is_nl c = true -> b64_dec (s1 ++ c :: s2) = b64_dec (s1 ++ s2).
Proof. intro H. unfold b64_dec. rewrite !filter_app. cbn [filter]. rewrite H. reflexivity. Qed.

(** ** integers in text *)
Fixpoint digits_val (base : Z) (acc : Z) (s : bytes) : option Z :=
  match s with
  | [] => Some acc
  | c :: r => match hexdig c with
              | Some d => if d <? base then digits_val base (acc * base + d) r else None
              | None => None
              end
  end.
(** big.Int.SetString(s, base) for base 10 or 16: optional sign, at least one digit, no prefix,
    no underscore; [None] is the ok=false return. *)
Definition parse_nat (base : Z) (s : bytes) : option Z :=
  match s with [] => None | _ => digits_val base 0 s end.
Definition parse_int (base : Z) (s : bytes) : option Z :=
  match s with
  | c :: r => if bz c =? 45 then match parse_nat base r with Some v => Some (- v) | None => None end
              else if bz c =? 43 then parse_nat base r else parse_nat base s
  | [] => None
  end.

Fixpoint dec_aux (fuel : nat) (z : Z) (acc : bytes) : bytes :=
  match fuel with
  | O => acc
  | S f => let acc' := hexchr (z mod 10) :: acc in
           if z / 10 <=? 0 then acc' else dec_aux f (z / 10) acc'
  end.
(** strconv.Itoa / fmt "%d" for a non-negative int *)
Definition itoa (z : Z) : bytes := dec_aux (S (Z.to_nat (Z.log2 z))) z [].

Lemma digits_val_app base acc s t :
  digits_val base acc (s ++ t) = match digits_val base acc s with Some v => digits_val base v t | None => None end.
Proof.
  revert acc; induction s as [|c s IH]; intro acc; [reflexivity|].
  simpl. destruct (hexdig c) as [d|]; [|reflexivity]. destruct (d <? base); [apply IH|reflexivity].
Qed.

Lemma dec_aux_correct fuel z acc :
  0 <= z -> z < 2 ^ Z.of_nat fuel -> (0 < fuel)%nat ->
  exists s, dec_aux fuel z acc = s ++ acc /\ s <> [] /\ digits_val 10 0 s = Some z.
Proof.
  revert z acc; induction fuel as [|f IH]; intros z acc H0 H1 Hf; [lia|].
  cbn [dec_aux]. destruct (Z.leb_spec (z / 10) 0).
  - exists [hexchr (z mod 10)]. split; [reflexivity|]. split; [discriminate|].
    cbn [digits_val]. rewrite hexdig_chr by lia.
    destruct (Z.ltb_spec (z mod 10) 10); [|lia]. f_equal. lia.
  - rewrite Nat2Z.inj_succ, Z.pow_succ_r in H1 by lia.
    assert (f <> 0)%nat by (intro; subst; change (2 ^ Z.of_nat 0) with 1 in H1; lia).
    destruct (IH (z / 10) (hexchr (z mod 10) :: acc)) as (s & E & N & V); [lia|lia|lia|].
    exists (s ++ [hexchr (z mod 10)]). split; [rewrite E, <- app_assoc; reflexivity|].
    split; [destruct s; discriminate|].
    rewrite digits_val_app, V. cbn [digits_val]. rewrite hexdig_chr by lia.
    destruct (Z.ltb_spec (z mod 10) 10); [|lia]. f_equal. lia.
Qed.

Lemma itoa_spec z : 0 <= z -> itoa z <> [] /\ digits_val 10 0 (itoa z) = Some z.
Proof.
  intro H. unfold itoa.
  destruct (dec_aux_correct (S (Z.to_nat (Z.log2 z))) z []) as (s & E & N & V); [exact H|apply log2_fuel; exact H|lia|].
  rewrite E, app_nil_r. split; assumption.
Qed.

Lemma digits_first base acc c r v : digits_val base acc (c :: r) = Some v -> bz c <> 45 /\ bz c <> 43.
Proof.
  cbn [digits_val]. unfold hexdig. intro H.
  destruct ((48 <=? bz c) && (bz c <=? 57)) eqn:E1; [lia|].
  destruct ((97 <=? bz c) && (bz c <=? 102)) eqn:E2; [lia|].
  destruct ((65 <=? bz c) && (bz c <=? 70)) eqn:E3; [lia|]. discriminate.
Qed.

Lemma parse_int_digits base s v : s <> [] -> digits_val base 0 s = Some v -> parse_int base s = Some v.
Proof.
  intros N V. destruct s as [|c r]; [congruence|].
  pose proof (digits_first _ _ _ _ _ V) as [A B]. unfold parse_int, parse_nat.
  destruct (Z.eqb_spec (bz c) 45); [contradiction|]. destruct (Z.eqb_spec (bz c) 43); [contradiction|]. exact V.
Qed.
Lemma parse_int_itoa z : 0 <= z -> parse_int 10 (itoa z) = Some z.
Proof. intro H. destruct (itoa_spec z H). apply parse_int_digits; assumption. Qed.
Lemma itoa_inj a b : 0 <= a -> 0 <= b -> itoa a = itoa b -> a = b.
Proof.
  intros Ha Hb H. destruct (itoa_spec a Ha) as [_ A]. destruct (itoa_spec b Hb) as [_ B]. congruence.
Qed.

Lemma digits_val_nonneg base acc s v : 0 <= base -> 0 <= acc -> digits_val base acc s = Some v -> 0 <= v.
Proof.
  intro Hb. revert acc; induction s as [|c s IH]; intros acc Ha H; simpl in H; [inversion H; lia|].
  destruct (hexdig c) as [d|] eqn:E; [|discriminate]. destruct (d <? base); [|discriminate].
  apply IH in H; [exact H|].
  assert (0 <= d). { unfold hexdig in E. pose proof (bz_range c).
    destruct ((48 <=? bz c) && (bz c <=? 57)) eqn:E1; [inversion E; lia|].
    destruct ((97 <=? bz c) && (bz c <=? 102)) eqn:E2; [inversion E; lia|].
    destruct ((65 <=? bz c) && (bz c <=? 70)) eqn:E3; [inversion E; lia|]. discriminate. }
  nia.
Qed.
