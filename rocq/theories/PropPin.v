(** PropPin.v -- statements that pin formats and grammars down (found by editing operators of the model: each of them fails
    for an edit that no earlier theorem noticed). *)
From Verif Require Import Base BigInt NumTh AbZ JsonStr Json Wire Messages Keygen Xor SecpField SecpPrimes Secp256k1 SecpCurve PropSecp SecpMul SecpZero PropSecpCurve Ecdsa PropPubKey PropEcdsa PropDer Cipher PropCipher.
Local Notation N := n256k1.

(** ** C58: the number grammar of JSON *)
Definition digit (b : byte) : Prop := 48 <= bz b <= 57.
(** an optional minus; 0 or digits not starting with 0; an optional fraction; an optional exponent *)
Definition json_number (t : bytes) : Prop := exists sg ip fr ex, t = sg ++ ip ++ fr ++ ex /\
  (sg = [] \/ sg = str "-") /\
  (ip = str "0" \/ exists d ds, ip = d :: ds /\ digit d /\ d <> zb 48 /\ Forall digit ds) /\
  (fr = [] \/ exists ds, fr = zb 46 :: ds /\ ds <> [] /\ Forall digit ds) /\
  (ex = [] \/ exists e s ds, ex = e :: s ++ ds /\ (e = zb 101 \/ e = zb 69) /\ (s = [] \/ s = str "+" \/ s = str "-") /\ ds <> [] /\ Forall digit ds).
Lemma is_dig_ok b : is_dig b = true <-> digit b.
Proof. unfold is_dig, digit. split; intro H; [apply andb_prop in H; lia|]. apply andb_true_intro. lia. Qed.
Lemma bzeq b z : 0 <= z < 256 -> bz b = z <-> b = zb z.
Proof. intro R. split; [intros <-; symmetry; apply zb_bz|intros ->; apply bz_zb_small; exact R]. Qed.
(** the longest run of digits *)
Lemma digs_split s : exists ds, s = ds ++ digs s /\ Forall digit ds /\ match digs s with b :: _ => ~ digit b | [] => True end.
Proof.
  induction s as [|b s (ds & E & F & G)]; [exists []; repeat split; constructor|]. cbn [digs]. destruct (is_dig b) eqn:D.
  - apply is_dig_ok in D. exists (b :: ds). split; [cbn; congruence|]. split; [constructor; assumption|exact G].
  - exists []. split; [reflexivity|]. split; [constructor|]. intro D'. apply is_dig_ok in D'. congruence.
Qed.
Lemma digs_app ds r : Forall digit ds -> match r with b :: _ => ~ digit b | [] => True end -> digs (ds ++ r) = r.
Proof.
  intros F G. induction F as [|b ds Hb _ IH]; cbn [app digs].
  - destruct r as [|b r]; [reflexivity|]. cbn [digs]. destruct (is_dig b) eqn:D; [apply is_dig_ok in D; contradiction|reflexivity].
  - apply is_dig_ok in Hb. rewrite Hb. exact IH.
Qed.
Definition expo (ex : bytes) : Prop := ex = [] \/ exists e s ds, ex = e :: s ++ ds /\ (e = zb 101 \/ e = zb 69) /\ (s = [] \/ s = str "+" \/ s = str "-") /\ ds <> [] /\ Forall digit ds.
Definition frac (fr : bytes) : Prop := fr = [] \/ exists ds, fr = zb 46 :: ds /\ ds <> [] /\ Forall digit ds.
Lemma digs1_ok s t : digs1 s = Some t <-> exists ds, s = ds ++ t /\ ds <> [] /\ Forall digit ds /\ match t with b :: _ => ~ digit b | [] => True end.
Proof.
  unfold digs1. destruct s as [|b s].
  - split; [discriminate|]. intros (ds & E & Ne & _). destruct ds; [congruence|discriminate].
  - destruct (is_dig b) eqn:D.
    + apply is_dig_ok in D. split.
      * intro E. assert (t = digs s) as -> by congruence. destruct (digs_split s) as (ds & E1 & F & G). exists (b :: ds). split; [cbn; congruence|]. split; [discriminate|]. split; [constructor; assumption|exact G].
      * intros (ds & E & Ne & F & G). destruct ds as [|b' ds]; [congruence|]. cbn in E. injection E as <- ->. inversion_clear F. rewrite digs_app by assumption. reflexivity.
    + split; [discriminate|]. intros (ds & E & Ne & F & _). destruct ds as [|b' ds]; [congruence|]. cbn in E. injection E as <- _. inversion_clear F as [|? ? Hb]. apply is_dig_ok in Hb. congruence.
Qed.
Lemma num_exp_ok s : num_exp s = true <-> expo s.
Proof.
  unfold num_exp, expo. destruct s as [|b r]; [split; auto|].
  assert (TR : forall r', (match digs1 r' with Some [] => true | _ => false end) = true <-> r' <> [] /\ Forall digit r').
  { intro r'. destruct (digs1 r') as [t|] eqn:E.
    - pose proof (proj1 (digs1_ok _ _) E) as (ds & -> & Ne & F & G). destruct t as [|c t]; [rewrite app_nil_r; tauto|]. split; [discriminate|]. intros [_ F']. apply Forall_app in F'. destruct F' as [_ F']. inversion_clear F'. contradiction.
    - split; [discriminate|]. intros [Ne F]. assert (digs1 r' = Some []) by (apply digs1_ok; exists r'; rewrite app_nil_r; auto). congruence. }
  destruct ((bz b =? 69) || (bz b =? 101)) eqn:Eb.
  - assert (Be : b = zb 101 \/ b = zb 69).
    { apply orb_prop in Eb. destruct Eb as [Eb|Eb]; apply Z.eqb_eq in Eb; [right|left]; apply bzeq; lia. }
    rewrite TR. split.
    + intros [Ne F]. right. destruct r as [|c t]; [congruence|]. destruct ((bz c =? 43) || (bz c =? 45)) eqn:Ec.
      * exists b, [c], t. split; [reflexivity|]. split; [exact Be|]. split; [|auto]. right. apply orb_prop in Ec. destruct Ec as [Ec|Ec]; apply Z.eqb_eq in Ec; [left|right]; (replace c with (zb (bz c)) by apply zb_bz; rewrite Ec; reflexivity).
      * exists b, [], (c :: t). split; [reflexivity|]. auto.
    + intros [|(e & s & ds & E & _ & Hs & Ne & F)]; [discriminate|]. injection E as _ ->. destruct Hs as [->|[->| ->]].
      * cbn [app]. destruct ds as [|c t]; [congruence|]. inversion F as [|? ? Hc Ht]; subst. unfold digit in Hc. replace ((bz c =? 43) || (bz c =? 45)) with false by (symmetry; apply orb_false_intro; lia). split; assumption.
      * cbn. split; assumption.
      * cbn. split; assumption.
  - split; [discriminate|]. intros [|(e & s & ds & E & He & _)]; [discriminate|]. injection E as -> _. destruct He as [->| ->]; vm_compute in Eb; discriminate.
Qed.
Lemma expo_no_digit ex : expo ex -> match ex with b :: _ => ~ digit b | [] => True end.
Proof. intros [->|(e & s & ds & -> & He & _)]; [exact I|]. unfold digit. destruct He as [->| ->]; vm_compute; intros [H1 H2]; [apply H2|apply H2]; reflexivity. Qed.
Lemma num_frac_ok s : num_frac s = true <-> exists fr ex, s = fr ++ ex /\ frac fr /\ expo ex.
Proof.
  unfold num_frac. destruct s as [|b r].
  - split; [intros _; exists [], []; repeat split; left; reflexivity|auto].
  - destruct (Z.eqb_spec (bz b) 46) as [Eb|Eb].
    + apply bzeq in Eb; [|lia]. subst b. destruct (digs1 r) as [t|] eqn:E.
      * pose proof (proj1 (digs1_ok _ _) E) as (ds & -> & Ne & F & G). rewrite num_exp_ok. split.
        -- intro X. exists (zb 46 :: ds), t. split; [reflexivity|]. split; [right; eauto|exact X].
        -- intros (fr & ex & Ef & Hf & He). destruct Hf as [->|(ds' & -> & Ne' & F')].
           ++ cbn in Ef. subst ex. destruct He as [|(e & s & d & Q & Hq & _)]; [discriminate|]. injection Q as Q _. rewrite <- Q in Hq. destruct Hq as [Hq|Hq]; apply (f_equal bz) in Hq; vm_compute in Hq; discriminate.
           ++ cbn in Ef. injection Ef as Ef. assert (t = ex).
              { rewrite <- (digs_app ds t F G), Ef. apply digs_app; [exact F'|apply expo_no_digit; exact He]. }
              subst. exact He.
      * split; [discriminate|]. intros (fr & ex & Ef & Hf & He). exfalso. destruct Hf as [->|(ds' & -> & Ne' & F')].
        -- cbn in Ef. subst ex. destruct He as [|(e & s & d & Q & Hq & _)]; [discriminate|]. injection Q as Q _. rewrite <- Q in Hq. destruct Hq as [Hq|Hq]; apply (f_equal bz) in Hq; vm_compute in Hq; discriminate.
        -- cbn in Ef. injection Ef as ->. assert (digs1 (ds' ++ ex) = Some ex) by (apply digs1_ok; exists ds'; repeat split; auto; apply expo_no_digit; exact He). congruence.
    + rewrite num_exp_ok. split.
      * intro X. exists [], (b :: r). split; [reflexivity|]. split; [left; reflexivity|exact X].
      * intros (fr & ex & Ef & Hf & He). destruct Hf as [->|(ds' & -> & _)]; [cbn in Ef; subst ex; exact He|]. cbn in Ef. injection Ef as -> _. exfalso. apply Eb. reflexivity.
Qed.
Definition num_core (u : bytes) : bool := match u with b :: r => if bz b =? 48 then num_frac r else if is_dig b then num_frac (digs r) else false | [] => false end.
Lemma num_ok_core t : num_ok t = num_core (match t with b :: r => if bz b =? 45 then r else t | [] => [] end).
Proof. reflexivity. Qed.
(** The number texts the decoder accepts are those of the JSON grammar. *)
Theorem C58_numbers t : num_ok t = true <-> json_number t.
Proof.
  assert (W : forall u, num_core u = true <->
    exists ip fr ex, u = ip ++ fr ++ ex /\ (ip = str "0" \/ exists d ds, ip = d :: ds /\ digit d /\ d <> zb 48 /\ Forall digit ds) /\ frac fr /\ expo ex).
  { unfold num_core. intros [|b r].
    - split; [discriminate|]. intros (ip & fr & ex & E & [->|(d & ds & -> & _)] & _); discriminate.
    - assert (NDF : forall fr ex, frac fr -> expo ex -> match fr ++ ex with b :: _ => ~ digit b | [] => True end).
      { intros fr ex [->|(ds & -> & _)] He; [apply expo_no_digit; exact He|]. cbn. unfold digit. vm_compute. intros [H1 H2]. apply H1. reflexivity. }
      destruct (Z.eqb_spec (bz b) 48) as [Eb|Eb].
      + apply bzeq in Eb; [|lia]. subst b. rewrite num_frac_ok. split.
        * intros (fr & ex & -> & Hf & He). exists (str "0"), fr, ex. repeat split; auto.
        * intros (ip & fr & ex & E & Hi & Hf & He). destruct Hi as [->|(d & ds & -> & _ & Nd & _)]; [cbn in E; injection E as ->; eauto|]. cbn in E. injection E as E _. exfalso. apply Nd. rewrite <- E. reflexivity.
      + destruct (is_dig b) eqn:D.
        * apply is_dig_ok in D. rewrite num_frac_ok. destruct (digs_split r) as (ds & Er & F & G). split.
          -- intros (fr & ex & E & Hf & He). exists (b :: ds), fr, ex. split; [cbn; congruence|]. split; [right; exists b, ds; repeat split; auto; try apply D; intros ->; apply Eb; reflexivity|auto].
          -- intros (ip & fr & ex & E & Hi & Hf & He). destruct Hi as [->|(d & ds' & -> & _ & _ & F')]; [cbn in E; injection E as -> _; exfalso; apply Eb; reflexivity|].
             cbn in E. injection E as _ ->. exists fr, ex. split; [|auto]. apply digs_app; [exact F'|apply NDF; assumption].
        * split; [discriminate|]. intros (ip & fr & ex & E & Hi & _). destruct Hi as [->|(d & ds' & -> & Hd & _)]; cbn in E; injection E as E _; [subst b; exfalso; apply Eb; reflexivity|]. subst d. apply is_dig_ok in Hd. congruence. }
  rewrite num_ok_core. unfold json_number. destruct t as [|b r].
  - rewrite (W []). split.
    + intros (ip & fr & ex & E & H). exists [], ip, fr, ex. split; [exact E|]. split; [auto|exact H].
    + intros (sg & ip & fr & ex & E & Hs & H). destruct Hs as [->| ->]; [|discriminate]. exists ip, fr, ex. auto.
  - destruct (Z.eqb_spec (bz b) 45) as [Eb|Eb].
    + apply bzeq in Eb; [|lia]. subst b. rewrite (W r). split.
      * intros (ip & fr & ex & -> & H). exists (str "-"), ip, fr, ex. split; [reflexivity|]. auto.
      * intros (sg & ip & fr & ex & E & Hs & H). destruct Hs as [->| ->].
        -- exfalso. cbn [app] in E. destruct H as [[->|(d & ds & -> & Hd & _)] _]; [discriminate|]. cbn in E. injection E as E _. subst d. unfold digit in Hd. vm_compute in Hd. destruct Hd as [Hd _]. apply Hd. reflexivity.
        -- cbn in E. injection E as ->. exists ip, fr, ex. auto.
    + rewrite W. split.
      * intros (ip & fr & ex & E & H). exists [], ip, fr, ex. auto.
      * intros (sg & ip & fr & ex & E & Hs & H). destruct Hs as [->| ->]; [exists ip, fr, ex; auto|]. cbn in E. injection E as -> _. exfalso. apply Eb. reflexivity.
Qed.
Theorem C58_numbers_example : json_number (str "-12.50e+3") /\ num_ok (str "-12.50e+3") = true /\ num_ok (str "012") = false /\ num_ok (str "1.") = false /\ num_ok (str "1e") = false /\ num_ok (str "+1") = false.
Proof. split; [apply C58_numbers; reflexivity|]. repeat split; reflexivity. Qed.

(** ** C35: text fields and unknown fields *)
(** the checker of text fields, one character at a time *)
Lemma utf8_step f a r : utf8_valid_f (S f) (a :: r) = if bz a <? 128 then utf8_valid_f f r else match utf8_head (a :: r) with Some (_, r') => utf8_valid_f f r' | None => false end.
Proof.
  cbn [utf8_valid_f]. pose proof (bz_range a) as RA. destruct (Z.ltb_spec (bz a) 128) as [|A]; [reflexivity|]. unfold utf8_head, cont, brange.
  assert (K : bz a < 194 \/ 194 <= bz a <= 223 \/ bz a = 224 \/ 225 <= bz a <= 236 \/ bz a = 237 \/ 238 <= bz a <= 239 \/ bz a = 240 \/ 241 <= bz a <= 243 \/ bz a = 244 \/ 245 <= bz a) by lia.
  Ltac fixz a := repeat match goal with
    | |- context [?x <=? bz a] => first [replace (x <=? bz a) with true by lia | replace (x <=? bz a) with false by lia]
    | |- context [bz a <=? ?x] => first [replace (bz a <=? x) with true by lia | replace (bz a <=? x) with false by lia]
    | |- context [bz a =? ?x] => first [replace (bz a =? x) with true by lia | replace (bz a =? x) with false by lia] end.
  Ltac splitb b := repeat match goal with
    | |- context [?x <=? bz b] => destruct (Z.leb_spec x (bz b)); try lia
    | |- context [bz b <=? ?x] => destruct (Z.leb_spec (bz b) x); try lia end.
  destruct r as [|b r1].
  { repeat match goal with |- context [if ?c then _ else _] => destruct c end; reflexivity. }
  repeat destruct K as [K|K]; fixz a; cbn [andb]; destruct r1 as [|c [|d r3]]; splitb b; cbn [andb]; try reflexivity; splitb c; cbn [andb]; try reflexivity; splitb d; reflexivity.
Qed.
Lemma utf8_fuel f : forall s, (length s <= f)%nat -> utf8_valid_f f s = true <-> exists us, Forall scalar us /\ s = concat (map utf8_enc us).
Proof.
  induction f as [|f IH]; intros [|a r] L; [| cbn in L; lia | |].
  - split; [intros _; exists []; split; [constructor|reflexivity]|reflexivity].
  - split; [intros _; exists []; split; [constructor|reflexivity]|reflexivity].
  - rewrite utf8_step. cbn [length] in L. destruct (Z.ltb_spec (bz a) 128) as [A|A].
    + rewrite IH by lia. pose proof (bz_range a) as RA. assert (EA : utf8_enc (bz a) = [a]) by (unfold utf8_enc; replace (bz a <? 128) with true by lia; rewrite zb_bz; reflexivity). split.
      * intros (us & F & ->). exists (bz a :: us). split; [constructor; [unfold scalar; lia|exact F]|]. cbn [map concat]. rewrite EA. reflexivity.
      * intros (us & F & E). destruct us as [|u us]; [discriminate|]. cbn [map concat] in E. pose proof (Forall_inv F) as S. apply Forall_inv_tail in F. destruct (Z.ltb_spec u 128) as [U|U].
        -- unfold utf8_enc in E at 1. replace (u <? 128) with true in E by lia. cbn [app] in E. injection E as _ E. eauto.
        -- exfalso. pose proof (utf8_enc_high u S U) as H. pose proof (utf8_enc_ne u) as NE. destruct (utf8_enc u) as [|b t]; [congruence|]. cbn [app] in E. injection E as E _. subst b. apply Forall_inv in H. lia.
    + destruct (utf8_head (a :: r)) as [[p r']|] eqn:HD.
      * apply utf8_head_inv in HD. destruct HD as (u & S & U & -> & E). pose proof (utf8_enc_ne u) as NE. rewrite IH.
        2:{ apply (f_equal (@length byte)) in E. rewrite app_length in E. cbn [length] in E. destruct (utf8_enc u); [congruence|cbn [length] in E; lia]. }
        split.
        -- intros (us & F & ->). exists (u :: us). split; [constructor; assumption|exact E].
        -- intros (us & F & E2). rewrite E in E2. destruct us as [|w us]; [cbn in E2; destruct (utf8_enc u); [congruence|discriminate]|]. cbn [map concat] in E2. pose proof (Forall_inv F) as SW. apply Forall_inv_tail in F. destruct (Z.ltb_spec w 128) as [W|W].
           ++ exfalso. pose proof (utf8_enc_high u S U) as H. destruct (utf8_enc u) as [|b t]; [congruence|]. unfold utf8_enc in E2. replace (w <? 128) with true in E2 by lia. cbn [app] in E2. injection E2 as E2 _. apply Forall_inv in H. subst b. unfold scalar in SW. rewrite bz_zb_small in H; lia.
           ++ pose proof (utf8_head_enc u r' S U) as P1. pose proof (utf8_head_enc w (concat (map utf8_enc us)) SW W) as P2. rewrite <- E2, P1 in P2. assert (r' = concat (map utf8_enc us)) as -> by congruence. eauto.
      * split; [discriminate|]. intros (us & F & E). exfalso. destruct us as [|w us]; [discriminate|]. cbn [map concat] in E. pose proof (Forall_inv F) as SW. destruct (Z.ltb_spec w 128) as [W|W].
        -- unfold utf8_enc in E. replace (w <? 128) with true in E by lia. cbn [app] in E. injection E as E _. subst a. unfold scalar in SW. rewrite bz_zb_small in A; lia.
        -- pose proof (utf8_head_enc w (concat (map utf8_enc us)) SW W) as P2. rewrite <- E, HD in P2. discriminate.
Qed.
(** a text field is accepted exactly if it is the UTF-8 form of a sequence of Unicode scalar values *)
Theorem C35_utf8 s : utf8_valid s = true <-> exists us, Forall scalar us /\ s = concat (map utf8_enc us).
Proof. apply utf8_fuel. lia. Qed.
(** an accepted message has a type URL in UTF-8 (every occurrence of that field) *)
Theorem C35_bad_url_refused w c fs b : parse_wire w = Some c -> pb_dec w = Some fs -> In (1, WLen b) fs -> exists us, Forall scalar us /\ b = concat (map utf8_enc us).
Proof.
  unfold parse_wire. intros H E I. rewrite E in H. destruct (strings_ok [1] fs) eqn:S; [|discriminate]. apply C35_utf8. unfold strings_ok in S. rewrite forallb_forall in S. specialize (S _ I). cbn in S. exact S.
Qed.
(** fields of the outer message that the code does not know are skipped, whatever their type: here one of each *)
Lemma pb_dec_cons num typ v body w : 1 <= num <= 536870911 -> 0 <= typ < 8 ->
  (forall k, val_dec (S k) num typ (body ++ w) = Some (v, w)) -> forall fs, (forall f, (length w <= f)%nat -> fields_dec f w = Some fs) ->
  pb_dec (venc (num * 8 + typ) ++ body ++ w) = Some ((num, v) :: fs).
Proof.
  intros Hn Ht V fs F. unfold pb_dec. assert (NE : venc (num * 8 + typ) <> []) by (unfold venc; cbn [venc_f]; destruct (_ <? 128); discriminate).
  pose proof (tag_dec_enc num typ (body ++ w) Hn Ht) as TD. destruct (venc (num * 8 + typ)) as [|b t]; [congruence|]. cbn [app length fields_dec] in *. rewrite TD, V, F; [reflexivity|]. rewrite !app_length. lia.
Qed.
Theorem C35_unknown_fields c num b4 b8 bl v : content_ok c -> 3 <= num <= 536870911 ->
  length b4 = 4%nat -> length b8 = 8%nat -> Z.of_nat (length bl) < 2 ^ 63 -> 0 <= v < 2 ^ 64 ->
  parse_wire (venc (num * 8 + 5) ++ b4 ++ wire_bytes c) = Some c /\
  parse_wire (venc (num * 8 + 1) ++ b8 ++ wire_bytes c) = Some c /\
  parse_wire (venc (num * 8 + 2) ++ (venc (Z.of_nat (length bl)) ++ bl) ++ wire_bytes c) = Some c /\
  parse_wire (venc (num * 8 + 0) ++ venc v ++ wire_bytes c) = Some c.
Proof.
  intro OK. rewrite <- (parse_wire_bytes c OK). destruct OK as (_ & SZ & _). destruct (url_of_name c) as (_ & _ & _ & SU).
  assert (FO : Forall field_ok (fbytes 1 (type_prefix ++ name_of c) ++ fbytes 2 (pb_enc (fields_of c)))) by (apply Forall_app; split; apply fbytes_ok; try lia; assumption). clear SZ SU.
  intros Rn L4 L8 Ll Rv. unfold wire_bytes, any_enc. set (fs := fbytes 1 _ ++ fbytes 2 _) in *. set (w := pb_enc fs).
  pose proof (pb_roundtrip fs FO) as RT. fold w in RT. pose proof (fields_dec_enc fs FO) as FD. fold w in FD.
  assert (SK : forall x val, pb_dec x = Some ((num, val) :: fs) -> parse_wire x = parse_wire w).
  { intros x val E. unfold parse_wire. rewrite E, RT. assert (strings_ok [1] ((num, val) :: fs) = strings_ok [1] fs) as ->.
    { unfold strings_ok. cbn [forallb existsb]. replace (num =? 1) with false by lia. destruct val; reflexivity. }
    assert (G : forall k, (k = 1 \/ k = 2) -> get_bytes k ((num, val) :: fs) = get_bytes k fs).
    { intros k K. unfold get_bytes. cbn [fold_left]. destruct val; try reflexivity. replace (num =? k) with false by lia. reflexivity. }
    rewrite !G by auto. reflexivity. }
  repeat split.
  - apply (SK _ (WF32 b4)). apply pb_dec_cons; [lia|lia| |exact FD]. intro k. cbn [val_dec]. change (5 =? 0) with false. change (5 =? 1) with false. change (5 =? 2) with false. change (5 =? 3) with false. change (5 =? 5) with true. cbv iota. rewrite <- L4, take_app. reflexivity.
  - apply (SK _ (WF64 b8)). apply pb_dec_cons; [lia|lia| |exact FD]. intro k. cbn [val_dec]. change (1 =? 0) with false. change (1 =? 1) with true. cbv iota. rewrite <- L8, take_app. reflexivity.
  - apply (SK _ (WLen bl)). apply pb_dec_cons; [lia|lia| |exact FD]. intro k. rewrite <- app_assoc. cbn [val_dec]. change (2 =? 0) with false. change (2 =? 1) with false. change (2 =? 2) with true. cbv iota. rewrite vdec_venc by lia. rewrite app_length. replace (Z.of_nat (length bl) <=? _) with true by lia. rewrite Nat2Z.id, take_app. reflexivity.
  - apply (SK _ (WVar v)). apply pb_dec_cons; [lia|lia| |exact FD]. intro k. cbn [val_dec]. change (0 =? 0) with true. cbv iota. rewrite vdec_venc by lia. reflexivity.
Qed.
Theorem C35_unknown_fields_example : exists c, content_ok c /\ c <> CKg1 [].
Proof. exists (CKg1 (str "v")). split; [apply ok_kg1; unfold tiny; cbn; lia|discriminate]. Qed.

(** ** C60: what is signed of a hash, and what seeds the nonce *)
(** hashes of up to 32 bytes are read as numbers; of longer ones the first 32 bytes count (256 bits, as the order of the group) *)
Theorem C60_digest h : ((length h <= 32)%nat -> hash_to_int h = of_be h) /\ ((32 <= length h)%nat -> hash_to_int h = of_be h / 256 ^ (Z.of_nat (length h) - 32)).
Proof.
  unfold hash_to_int. split; intro L; [rewrite firstn_all2 by lia; reflexivity|]. rewrite <- (firstn_skipn 32 h) at 2. rewrite of_be_app. rewrite skipn_length. replace (Z.of_nat (length h - 32)) with (Z.of_nat (length h) - 32) by lia.
  pose proof (of_be_range (skipn 32 h)) as R. rewrite skipn_length in R. replace (Z.of_nat (length h - 32)) with (Z.of_nat (length h) - 32) in R by lia. rewrite Z.div_add_l by lia. rewrite Z.div_small by lia. lia.
Qed.
(** the two strings that seed the nonce: the private number and the digest modulo the order, both of 32 bytes *)
Theorem C60_nonce_seed h d : 0 <= d < 2 ^ 256 -> int2octets d = be_fixed 32 d /\ bits2octets h = be_fixed 32 (hash_to_int h mod N).
Proof.
  assert (I : forall v, 0 <= v < 2 ^ 256 -> int2octets v = be_fixed 32 v).
  { intros v R. rewrite be_fixed_pad by exact R. assert (L : (length (to_be v) <= 32)%nat) by (apply to_be_length; rewrite Z.abs_eq by lia; exact (proj2 R)). unfold int2octets. cbv zeta.
    destruct (Nat.ltb_spec (length (to_be v)) 32); [reflexivity|]. destruct (Nat.ltb_spec 32 (length (to_be v))); [lia|]. replace (32 - length (to_be v))%nat with O by lia. reflexivity. }
  intro D. split; [apply I; exact D|]. assert (R : 0 <= hash_to_int h < 2 ^ 256).
  { unfold hash_to_int. pose proof (of_be_range (firstn 32 h)) as R. assert (256 ^ Z.of_nat (length (firstn 32 h)) <= 256 ^ 32) by (apply Z.pow_le_mono_r; [lia|rewrite firstn_length; lia]). change (2 ^ 256) with (256 ^ 32). lia. }
  assert (N2 : 2 ^ 255 < N < 2 ^ 256) by (split; reflexivity). unfold bits2octets. cbv zeta. destruct (Z.ltb_spec (hash_to_int h - N) 0).
  - rewrite Z.mod_small by lia. apply I. lia.
  - assert (hash_to_int h mod N = hash_to_int h - N) as ->; [|apply I; lia]. symmetry. apply (Z.mod_unique _ _ 1); [left; lia|lia].
Qed.

(** ** C62: the format of an encrypted message *)
Section Layout.
  Variable H512 : bytes -> bytes.
  Variable HM : bytes -> bytes -> bytes.
  Variables aes_e : bytes -> bytes -> bytes.
  Variable T : table.
  Hypothesis HT : table_ok T.
  (** iv, 0x02ca (the curve), 32 and the two coordinates of the ephemeral key, the blocks of the padded text, the tag *)
  Theorem C62_layout e q iv m x y : 0 < e < N -> aff (zm e G) = (x, y) -> length iv = 16%nat ->
    exists ct mac, encrypt H512 HM aes_e T q e iv m = Ret (iv ++ map zb [2; 202; 0; 32] ++ be_fixed 32 x ++ map zb [0; 32] ++ be_fixed 32 y ++ ct ++ mac) /\
      ct = cbc_enc aes_e (length m / 16 + 1) (firstn 32 (H512 (to_be (fst (s_mul q (to_be e)))))) iv (add_pad m) /\
      mac = HM (skipn 32 (H512 (to_be (fst (s_mul q (to_be e)))))) (iv ++ map zb [2; 202; 0; 32] ++ be_fixed 32 x ++ map zb [0; 32] ++ be_fixed 32 y ++ ct).
  Proof.
    intros E AE I. pose proof (kg_nz e E) as NZ. unfold encrypt. rewrite (bm T e HT) by lia. cbn [deref obind].
    rewrite AE. assert (O : on_curve x y) by (apply on_curve_point; exists (zm e G); auto). destruct (on_lt _ _ O) as [RX RY].
    unfold ser_unc. cbn [fst snd]. rewrite !pad32_fixed by assumption. assert (LX : length (be_fixed 32 x) = 32%nat) by apply be_fixed_length. assert (LY : length (be_fixed 32 y) = 32%nat) by apply be_fixed_length.
    assert (S1 : slice (zb 4 :: be_fixed 32 x ++ be_fixed 32 y) 1 33 = Ret (be_fixed 32 x)) by (apply (slice_app [zb 4] (be_fixed 32 x) (be_fixed 32 y)); rewrite ?LX; reflexivity). rewrite S1. cbn [obind].
    assert (S2 : slice (zb 4 :: be_fixed 32 x ++ be_fixed 32 y) 33 65 = Ret (be_fixed 32 y)).
    { replace (zb 4 :: be_fixed 32 x ++ be_fixed 32 y) with ((zb 4 :: be_fixed 32 x) ++ be_fixed 32 y ++ []) by (rewrite app_nil_r; reflexivity). apply slice_app; [cbn [length]; rewrite LX; reflexivity|rewrite LY; reflexivity]. }
    rewrite S2. cbn [obind]. pose proof (add_pad_len m) as LP. assert (CE : forall k i, crypt_enc aes_e k i (add_pad m) = Ret (cbc_enc aes_e (length m / 16 + 1) k i (add_pad m))).
    { intros k i. unfold crypt_enc. rewrite LP, Nat.mul_comm, Nat.mod_mul, Nat.div_mul by lia. reflexivity. }
    rewrite CE. cbn [obind]. unfold shared.
    eexists _, _. split; [|split; reflexivity]. unfold curve_bytes, coord_len. cbn [map app]. rewrite <- !app_assoc. cbn [app]. rewrite <- !app_assoc. cbn [app]. rewrite <- !app_assoc. reflexivity.
  Qed.
End Layout.

(** ** C49: key sizes *)
From Verif Require PaillierGen.
(** the checked constructor refuses every size below 2048 bits, whatever is drawn, and is the unchecked one from 2048 bits on *)
Theorem C49_size B size attempts tries : (size < 2048 -> PaillierGen.a_new_checked B size attempts tries = None) /\ (2048 <= size -> PaillierGen.a_new_checked B size attempts tries = PaillierGen.a_new B attempts tries).
Proof. unfold PaillierGen.a_new_checked. split; intro; [replace (size <? 2048) with true by lia|replace (size <? 2048) with false by lia]; reflexivity. Qed.
