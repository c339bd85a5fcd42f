(** JsonStr.v -- string literals of Go's encoding/json (decode.go unquoteBytes, scanner.go), used wherever /repo calls
    json.Unmarshal: eddsacmp/onsign/local_party.go 113, crypto/ecpoint.go 246, eddsacmp/onsign/sign.go.  Model of an external library. *)
From Verif Require Import Base BigInt.

(** ** UTF-8 *)
(** unicode/utf8 EncodeRune *)
Definition utf8_enc (u : Z) : bytes :=
  if u <? 128 then [zb u]
  else if u <? 2048 then [zb (192 + u / 64); zb (128 + u mod 64)]
  else if u <? 65536 then [zb (224 + u / 4096); zb (128 + u / 64 mod 64); zb (128 + u mod 64)]
  else [zb (240 + u / 262144); zb (128 + u / 4096 mod 64); zb (128 + u / 64 mod 64); zb (128 + u mod 64)].
(** U+FFFD, written wherever the text is not well formed *)
Definition utf8_bad : bytes := [zb 239; zb 191; zb 189].
Definition brange (lo hi : Z) (b : byte) : bool := (lo <=? bz b) && (bz b <=? hi).
(** unicode/utf8 DecodeRune (its table of first and accepted second bytes): the multi-byte sequence at the head, if any *)
Definition utf8_head (s : bytes) : option (bytes * bytes) :=
  match s with
  | a :: b :: r =>
    if brange 194 223 a && brange 128 191 b then Some ([a; b], r)
    else match r with
         | c :: r2 =>
           if (if bz a =? 224 then brange 160 191 b else if bz a =? 237 then brange 128 159 b else brange 225 239 a && brange 128 191 b) && brange 128 191 c
           then Some ([a; b; c], r2)
           else match r2 with
                | d :: r3 =>
                  if (if bz a =? 240 then brange 144 191 b else if bz a =? 244 then brange 128 143 b else brange 241 243 a && brange 128 191 b) && brange 128 191 c && brange 128 191 d
                  then Some ([a; b; c; d], r3) else None
                | [] => None
                end
         | [] => None
         end
  | _ => None
  end.

(** ** one character of a string literal *)
Definition hexd (b : byte) : option Z :=
  let z := bz b in
  if (48 <=? z) && (z <=? 57) then Some (z - 48)
  else if (65 <=? z) && (z <=? 70) then Some (z - 55)
  else if (97 <=? z) && (z <=? 102) then Some (z - 87) else None.
(** decode.go getu4 *)
Definition hex4 (s : bytes) : option (Z * bytes) :=
  match s with
  | a :: b :: c :: d :: r =>
    match hexd a, hexd b, hexd c, hexd d with
    | Some a, Some b, Some c, Some d => Some (a * 4096 + b * 256 + c * 16 + d, r)
    | _, _, _, _ => None
    end
  | _ => None
  end.
(** what follows a backslash *)
Definition jescape (s : bytes) : option (bytes * bytes) :=
  match s with
  | [] => None
  | c :: r =>
    let z := bz c in
    if (z =? 34) || (z =? 92) || (z =? 47) then Some ([c], r)
    else if z =? 98 then Some ([zb 8], r) else if z =? 102 then Some ([zb 12], r) else if z =? 110 then Some ([zb 10], r)
    else if z =? 114 then Some ([zb 13], r) else if z =? 116 then Some ([zb 9], r)
    else if z =? 117 then
      match hex4 r with
      | None => None
      | Some (u, r4) =>
        if (55296 <=? u) && (u <? 57344) then
          match r4 with
          | x :: y :: r6 =>
            if (bz x =? 92) && (bz y =? 117) then
              match hex4 r6 with
              | Some (v, r8) => if (u <? 56320) && (56320 <=? v) && (v <? 57344) then Some (utf8_enc ((u - 55296) * 1024 + (v - 56320) + 65536), r8) else Some (utf8_bad, r4)
              | None => Some (utf8_bad, r4)
              end
            else Some (utf8_bad, r4)
          | _ => Some (utf8_bad, r4)
          end
        else Some (utf8_enc u, r4)
      end
    else None
  end.
(** one character, not the closing quote *)
Definition jtok (s : bytes) : option (bytes * bytes) :=
  match s with
  | [] => None
  | b :: r =>
    if bz b <? 32 then None
    else if bz b =? 92 then jescape r
    else if bz b <? 128 then Some ([b], r)
    else match utf8_head s with Some x => Some x | None => Some (utf8_bad, r) end
  end.
Fixpoint jbody (f : nat) (s : bytes) : option (bytes * bytes) :=
  match f with
  | O => None
  | S f =>
    match s with
    | [] => None
    | b :: r =>
      if bz b =? 34 then Some ([], r)
      else match jtok s with
           | Some (e, s') => match jbody f s' with Some (k, u) => Some (e ++ k, u) | None => None end
           | None => None
           end
    end
  end.
(** the decoded text up to the closing quote, and what follows the quote *)
Definition jstr_body (s : bytes) : option (bytes * bytes) := jbody (S (length s)) s.

(** ** the same, as a grammar *)
(** a Unicode scalar value *)
Definition scalar (u : Z) : Prop := 0 <= u < 55296 \/ 57344 <= u < 1114112.
(** the number written by hexadecimal digits *)
Inductive hex_value : bytes -> Z -> Prop :=
| hv_nil : hex_value [] 0
| hv_dec l n b : hex_value l n -> 48 <= bz b <= 57 -> hex_value (l ++ [b]) (16 * n + (bz b - 48))
| hv_upper l n b : hex_value l n -> 65 <= bz b <= 70 -> hex_value (l ++ [b]) (16 * n + (bz b - 55))
| hv_lower l n b : hex_value l n -> 97 <= bz b <= 102 -> hex_value (l ++ [b]) (16 * n + (bz b - 87)).
(** [raw] is the literal between the quotes, [k] its text *)
Inductive jchars : bytes -> bytes -> Prop :=
| jc_end : jchars [] []
| jc_plain b s k : 32 <= bz b < 128 -> bz b <> 34 -> bz b <> 92 -> jchars s k -> jchars (b :: s) (b :: k)
| jc_utf8 u s k : scalar u -> 128 <= u -> jchars s k -> jchars (utf8_enc u ++ s) (utf8_enc u ++ k)
| jc_bad b s k : 128 <= bz b -> (forall u t, scalar u -> b :: s <> utf8_enc u ++ t) -> jchars s k -> jchars (b :: s) (utf8_bad ++ k)
| jc_esc c v s k : In (bz c, v) [(34, 34); (92, 92); (47, 47); (98, 8); (102, 12); (110, 10); (114, 13); (116, 9)] ->
    jchars s k -> jchars (zb 92 :: c :: s) (zb v :: k)
| jc_u a b c d u s k : hex_value [a; b; c; d] u -> scalar u -> jchars s k -> jchars (zb 92 :: zb 117 :: a :: b :: c :: d :: s) (utf8_enc u ++ k)
| jc_pair a b c d a' b' c' d' u v s k : hex_value [a; b; c; d] u -> hex_value [a'; b'; c'; d'] v ->
    55296 <= u < 56320 -> 56320 <= v < 57344 -> jchars s k ->
    jchars (zb 92 :: zb 117 :: a :: b :: c :: d :: zb 92 :: zb 117 :: a' :: b' :: c' :: d' :: s)
           (utf8_enc (65536 + (u - 55296) * 1024 + (v - 56320)) ++ k)
| jc_lone a b c d u s k : hex_value [a; b; c; d] u -> 55296 <= u < 57344 ->
    (forall a' b' c' d' v t, hex_value [a'; b'; c'; d'] v -> 56320 <= v < 57344 -> u < 56320 -> s <> zb 92 :: zb 117 :: a' :: b' :: c' :: d' :: t) ->
    jchars s k -> jchars (zb 92 :: zb 117 :: a :: b :: c :: d :: s) (utf8_bad ++ k).

(** *** UTF-8 *)
Lemma bzb z : 0 <= z < 256 -> bz (zb z) = z.
Proof. intro R. rewrite bz_zb. apply Z.mod_small, R. Qed.
Lemma utf8_enc_high u : scalar u -> 128 <= u -> Forall (fun b => 128 <= bz b) (utf8_enc u).
Proof.
  intros S L. unfold scalar in S. unfold utf8_enc. replace (u <? 128) with false by lia.
  pose proof (Z.mod_pos_bound u 64 ltac:(lia)). pose proof (Z.mod_pos_bound (u / 64) 64 ltac:(lia)). pose proof (Z.mod_pos_bound (u / 4096) 64 ltac:(lia)).
  assert (0 <= u / 64 /\ u / 64 < 32 \/ 2048 <= u) by (destruct (Z_lt_le_dec u 2048); [left; split; [apply Z.div_pos; lia|apply Z.div_lt_upper_bound; lia]|right; lia]).
  assert (0 <= u / 4096 /\ u / 4096 < 16 \/ 65536 <= u) by (destruct (Z_lt_le_dec u 65536); [left; split; [apply Z.div_pos; lia|apply Z.div_lt_upper_bound; lia]|right; lia]).
  assert (0 <= u / 262144 < 5) by (split; [apply Z.div_pos; lia|apply Z.div_lt_upper_bound; lia]).
  destruct (u <? 2048) eqn:E1; [|destruct (u <? 65536) eqn:E2]; repeat (constructor; [rewrite bzb by lia; lia|]); constructor.
Qed.
Lemma utf8_head_enc u r : scalar u -> 128 <= u -> utf8_head (utf8_enc u ++ r) = Some (utf8_enc u, r).
Proof.
  intros S L. unfold scalar in S. unfold utf8_enc. replace (u <? 128) with false by lia.
  pose proof (Z.mod_pos_bound u 64 ltac:(lia)). pose proof (Z.mod_pos_bound (u / 64) 64 ltac:(lia)). pose proof (Z.mod_pos_bound (u / 4096) 64 ltac:(lia)).
  pose proof (Z.div_mod u 64 ltac:(lia)) as D1. pose proof (Z.div_mod (u / 64) 64 ltac:(lia)) as D2. pose proof (Z.div_mod (u / 4096) 64 ltac:(lia)) as D3.
  rewrite (Z.div_div u 64 64) in D2 by lia. rewrite (Z.div_div u 4096 64) in D3 by lia. change (64 * 64) with 4096 in D2. change (4096 * 64) with 262144 in D3.
  remember (u mod 64) as m0. remember (u / 64) as d0. remember (d0 mod 64) as m1. remember (u / 4096) as d1. remember (d1 mod 64) as m2. remember (u / 262144) as d2.
  destruct (u <? 2048) eqn:E1; [|destruct (u <? 65536) eqn:E2]; cbn [app utf8_head].
  - unfold brange. rewrite !bzb by lia. replace ((194 <=? 192 + d0) && (192 + d0 <=? 223) && ((128 <=? 128 + m0) && (128 + m0 <=? 191))) with true by lia. reflexivity.
  - unfold brange. rewrite !bzb by lia. 
    replace ((194 <=? 224 + d1) && (224 + d1 <=? 223) && ((128 <=? 128 + m1) && (128 + m1 <=? 191))) with false by lia.
    match goal with |- (if ?c then _ else _) = _ => replace c with true; [reflexivity|] end.
    destruct (224 + d1 =? 224) eqn:C1; [lia|]. destruct (224 + d1 =? 237) eqn:C2; lia.
  - unfold brange. rewrite !bzb by lia. 
    replace ((194 <=? 240 + d2) && (240 + d2 <=? 223) && ((128 <=? 128 + m2) && (128 + m2 <=? 191))) with false by lia.
    replace (240 + d2 =? 224) with false by lia. replace (240 + d2 =? 237) with false by lia.
    replace ((225 <=? 240 + d2) && (240 + d2 <=? 239)) with false by lia. cbn [andb].
    match goal with |- (if ?c then _ else _) = _ => replace c with true; [reflexivity|] end.
    destruct (240 + d2 =? 240) eqn:C1; [lia|]. destruct (240 + d2 =? 244) eqn:C2; lia.
Qed.
Lemma bz_eq a z : bz a = z -> a = zb z.
Proof. intros <-. symmetry. apply zb_bz. Qed.
Lemma utf8_head_inv s p r : utf8_head s = Some (p, r) -> exists u, scalar u /\ 128 <= u /\ p = utf8_enc u /\ s = p ++ r.
Proof.
  destruct s as [|a [|b t]]; try discriminate. cbn [utf8_head]. unfold brange, scalar.
  pose proof (bz_range a) as Ra. pose proof (bz_range b) as Rb.
  destruct ((194 <=? bz a) && (bz a <=? 223) && ((128 <=? bz b) && (bz b <=? 191))) eqn:E1.
  { intro H. assert (p = [a; b] /\ r = t) as [-> ->] by (split; congruence).
    set (w := (bz a - 192) * 64 + (bz b - 128)).
    assert (W2 : w / 64 = bz a - 192) by (unfold w; rewrite Z.div_add_l, Z.div_small; lia).
    assert (W3 : w mod 64 = bz b - 128) by (rewrite Z.mod_eq, W2; unfold w; lia).
    exists w. split; [unfold w; lia|]. split; [unfold w; lia|]. split; [|reflexivity].
    unfold utf8_enc. replace (w <? 128) with false by (unfold w; lia). replace (w <? 2048) with true by (unfold w; lia).
    rewrite W2, W3. repeat (f_equal; try (apply bz_eq; lia)). }
  destruct t as [|c t]; [discriminate|]. pose proof (bz_range c) as Rc.
  match goal with |- (if ?x then _ else _) = _ -> _ => destruct x eqn:E2 end.
  { intro H. assert (p = [a; b; c] /\ r = t) as [-> ->] by (split; congruence).
    assert (Q : 224 <= bz a <= 239 /\ 128 <= bz b <= 191 /\ 128 <= bz c <= 191 /\ (bz a = 224 -> 160 <= bz b) /\ (bz a = 237 -> bz b <= 159)).
    { destruct (bz a =? 224) eqn:C1; [lia|]. destruct (bz a =? 237) eqn:C2; lia. }
    clear E1 E2. set (w := (bz a - 224) * 4096 + ((bz b - 128) * 64 + (bz c - 128))).
    assert (W1 : w / 4096 = bz a - 224) by (unfold w; rewrite Z.div_add_l, Z.div_small; lia).
    assert (W2 : w / 64 = (bz a - 224) * 64 + (bz b - 128)).
    { unfold w. replace (_ + _) with (((bz a - 224) * 64 + (bz b - 128)) * 64 + (bz c - 128)) by lia. rewrite Z.div_add_l, Z.div_small; lia. }
    assert (W3 : w mod 64 = bz c - 128) by (rewrite Z.mod_eq, W2; unfold w; lia).
    exists w. split; [unfold w; lia|]. split; [unfold w; lia|]. split; [|reflexivity].
    unfold utf8_enc. replace (w <? 128) with false by (unfold w; lia). replace (w <? 2048) with false by (unfold w; lia). replace (w <? 65536) with true by (unfold w; lia).
    rewrite W1, W2, W3. rewrite (Z.add_comm _ (bz b - 128)), Z_mod_plus_full, (Z.mod_small (bz b - 128)) by lia.
    repeat (f_equal; try (apply bz_eq; lia)). }
  destruct t as [|d t]; [discriminate|]. pose proof (bz_range d) as Rd.
  match goal with |- (if ?x then _ else _) = _ -> _ => destruct x eqn:E3; [|discriminate] end.
  intro H. assert (p = [a; b; c; d] /\ r = t) as [-> ->] by (split; congruence).
  assert (Q : 240 <= bz a <= 244 /\ 128 <= bz b <= 191 /\ 128 <= bz c <= 191 /\ 128 <= bz d <= 191 /\ (bz a = 240 -> 144 <= bz b) /\ (bz a = 244 -> bz b <= 143)).
  { destruct (bz a =? 240) eqn:C1; [lia|]. destruct (bz a =? 244) eqn:C2; lia. }
  clear E1 E2 E3. set (w := (bz a - 240) * 262144 + ((bz b - 128) * 4096 + ((bz c - 128) * 64 + (bz d - 128)))).
  assert (W0 : w / 262144 = bz a - 240) by (unfold w; rewrite Z.div_add_l, Z.div_small; lia).
  assert (W1 : w / 4096 = (bz a - 240) * 64 + (bz b - 128)).
  { unfold w. replace (_ + _) with (((bz a - 240) * 64 + (bz b - 128)) * 4096 + ((bz c - 128) * 64 + (bz d - 128))) by lia. rewrite Z.div_add_l, Z.div_small; lia. }
  assert (W2 : w / 64 = ((bz a - 240) * 64 + (bz b - 128)) * 64 + (bz c - 128)).
  { unfold w. replace (_ + _) with ((((bz a - 240) * 64 + (bz b - 128)) * 64 + (bz c - 128)) * 64 + (bz d - 128)) by lia. rewrite Z.div_add_l, Z.div_small; lia. }
  assert (W3 : w mod 64 = bz d - 128) by (rewrite Z.mod_eq, W2; unfold w; lia).
  exists w. split; [unfold w; lia|]. split; [unfold w; lia|]. split; [|reflexivity].
  unfold utf8_enc. replace (w <? 128) with false by (unfold w; lia). replace (w <? 2048) with false by (unfold w; lia). replace (w <? 65536) with false by (unfold w; lia).
  rewrite W0, W1, W2, W3. rewrite (Z.add_comm _ (bz b - 128)), Z_mod_plus_full, (Z.mod_small (bz b - 128)) by lia.
  rewrite (Z.add_comm _ (bz c - 128)), Z_mod_plus_full, (Z.mod_small (bz c - 128)) by lia.
  repeat (f_equal; try (apply bz_eq; lia)).
Qed.

(** *** four hexadecimal digits *)
Lemma hexd_val b v : hexd b = Some v -> 0 <= v < 16 /\ forall l n, hex_value l n -> hex_value (l ++ [b]) (16 * n + v).
Proof.
  unfold hexd. destruct ((48 <=? bz b) && (bz b <=? 57)) eqn:E1; [|destruct ((65 <=? bz b) && (bz b <=? 70)) eqn:E2; [|destruct ((97 <=? bz b) && (bz b <=? 102)) eqn:E3; [|discriminate]]];
    intro H; [assert (v = bz b - 48) as -> by congruence|assert (v = bz b - 55) as -> by congruence|assert (v = bz b - 87) as -> by congruence]; (split; [lia|]); intros l n HV.
  - apply hv_dec; [exact HV|lia]. - apply hv_upper; [exact HV|lia]. - apply hv_lower; [exact HV|lia].
Qed.
Lemma hex_value_last l b n : hex_value (l ++ [b]) n -> exists m v, hex_value l m /\ hexd b = Some v /\ n = 16 * m + v.
Proof.
  intro H. remember (l ++ [b]) as x eqn:E. destruct H as [|l' m c H R|l' m c H R|l' m c H R].
  - destruct l; discriminate E.
  - apply app_inj_tail in E. destruct E as [-> ->]. exists m, (bz b - 48). split; [exact H|]. split; [|reflexivity]. unfold hexd. replace ((48 <=? bz b) && (bz b <=? 57)) with true by lia. reflexivity.
  - apply app_inj_tail in E. destruct E as [-> ->]. exists m, (bz b - 55). split; [exact H|]. split; [|reflexivity]. unfold hexd. replace ((48 <=? bz b) && (bz b <=? 57)) with false by lia.
    replace ((65 <=? bz b) && (bz b <=? 70)) with true by lia. reflexivity.
  - apply app_inj_tail in E. destruct E as [-> ->]. exists m, (bz b - 87). split; [exact H|]. split; [|reflexivity]. unfold hexd. replace ((48 <=? bz b) && (bz b <=? 57)) with false by lia.
    replace ((65 <=? bz b) && (bz b <=? 70)) with false by lia. replace ((97 <=? bz b) && (bz b <=? 102)) with true by lia. reflexivity.
Qed.
Lemma hex_value_nil n : hex_value [] n -> n = 0.
Proof. intro H. remember (@nil byte) as x eqn:E. destruct H as [|l' m c H R|l' m c H R|l' m c H R]; [reflexivity| | |]; destruct l'; discriminate E. Qed.
Lemma hex4_spec s u r : hex4 s = Some (u, r) <-> exists a b c d, s = a :: b :: c :: d :: r /\ hex_value [a; b; c; d] u.
Proof.
  split.
  - destruct s as [|a [|b [|c [|d s]]]]; try discriminate. cbn [hex4].
    destruct (hexd a) as [x|] eqn:Ea; [|discriminate]. destruct (hexd b) as [y|] eqn:Eb; [|discriminate]. destruct (hexd c) as [z|] eqn:Ec; [|discriminate]. destruct (hexd d) as [w|] eqn:Ed; [|discriminate].
    intro H. assert (r = s) as -> by congruence. exists a, b, c, d. split; [reflexivity|].
    assert (u = 16 * (16 * (16 * (16 * 0 + x) + y) + z) + w) as -> by (assert (u = x * 4096 + y * 256 + z * 16 + w) by congruence; lia).
    apply hexd_val in Ea, Eb, Ec, Ed. change [a; b; c; d] with (((([] ++ [a]) ++ [b]) ++ [c]) ++ [d]).
    apply Ed, Ec, Eb, Ea, hv_nil.
  - intros (a & b & c & d & -> & H). cbn [hex4]. change [a; b; c; d] with (((([] ++ [a]) ++ [b]) ++ [c]) ++ [d]) in H.
    apply hex_value_last in H. destruct H as (m3 & w & H & -> & ->). apply hex_value_last in H. destruct H as (m2 & z & H & -> & ->).
    apply hex_value_last in H. destruct H as (m1 & y & H & -> & ->). apply hex_value_last in H. destruct H as (m0 & x & H & -> & ->).
    apply hex_value_nil in H. subst m0. f_equal. f_equal. lia.
Qed.
Lemma hex_value_range a b c d u : hex_value [a; b; c; d] u -> 0 <= u < 65536.
Proof.
  intros H. change [a; b; c; d] with (((([] ++ [a]) ++ [b]) ++ [c]) ++ [d]) in H.
  apply hex_value_last in H. destruct H as (m3 & w & H & Ew & ->). apply hex_value_last in H. destruct H as (m2 & z & H & Ez & ->).
  apply hex_value_last in H. destruct H as (m1 & y & H & Ey & ->). apply hex_value_last in H. destruct H as (m0 & x & H & Ex & ->).
  apply hex_value_nil in H. subst m0. apply hexd_val in Ew, Ez, Ey, Ex. lia.
Qed.
Lemma hex_value_digits a b c d u : hex_value [a; b; c; d] u -> Forall (fun x => bz x <> 34) [a; b; c; d].
Proof.
  intros H. change [a; b; c; d] with (((([] ++ [a]) ++ [b]) ++ [c]) ++ [d]) in H.
  assert (G : forall b v, hexd b = Some v -> bz b <> 34) by (intros b0 v; unfold hexd; intros HH Q; rewrite Q in HH; discriminate HH).
  apply hex_value_last in H. destruct H as (m3 & w & H & Ew & ->). apply hex_value_last in H. destruct H as (m2 & z & H & Ez & ->).
  apply hex_value_last in H. destruct H as (m1 & y & H & Ey & ->). apply hex_value_last in H. destruct H as (m0 & x & H & Ex & ->).
  constructor; [exact (G _ _ Ex)|]. constructor; [exact (G _ _ Ey)|]. constructor; [exact (G _ _ Ez)|]. constructor; [exact (G _ _ Ew)|constructor].
Qed.

(** *** the decoder follows the grammar *)
(** a piece without a quote in front of a quote comes from what is before the quote *)
Lemma before_quote p s (r t : bytes) : Forall (fun b => bz b <> 34) p -> s ++ zb 34 :: r = p ++ t -> exists w, s = p ++ w.
Proof.
  intro F. revert s. induction F as [|b p N F IH]; intros s E; [exists s; reflexivity|]. cbn [app] in E.
  destruct s as [|c s]; cbn [app] in E.
  - exfalso. apply N. assert (b = zb 34) as -> by congruence. reflexivity.
  - assert (c = b) as -> by congruence. assert (E' : s ++ zb 34 :: r = p ++ t) by congruence. destruct (IH s E') as [w ->]. exists w. reflexivity.
Qed.
Lemma high_no_quote p : Forall (fun b => 128 <= bz b) p -> Forall (fun b => bz b <> 34) p.
Proof. apply Forall_impl. intros b H. lia. Qed.

Lemma jescape_len s e r : jescape s = Some (e, r) -> (length r < length s)%nat.
Proof.
  assert (H4 : forall s u r, hex4 s = Some (u, r) -> (length r + 4 = length s)%nat) by (intros s0 u r0 H; apply hex4_spec in H; destruct H as (a & b & c & d & -> & _); cbn [length]; lia).
  destruct s as [|c t]; [discriminate|]. cbn [jescape length].
  assert (P : forall (x : bytes), Some (x, t) = Some (e, r) -> (length r < S (length t))%nat) by (intros x H; assert (t = r) as -> by congruence; lia).
  destruct ((bz c =? 34) || (bz c =? 92) || (bz c =? 47)); [apply P|]. destruct (bz c =? 98); [apply P|]. destruct (bz c =? 102); [apply P|]. destruct (bz c =? 110); [apply P|].
  destruct (bz c =? 114); [apply P|]. destruct (bz c =? 116); [apply P|]. destruct (bz c =? 117); [|discriminate].
  destruct (hex4 t) as [[u r4]|] eqn:E; [|discriminate]. apply H4 in E.
  assert (Q : forall (x : bytes), Some (x, r4) = Some (e, r) -> (length r < S (length t))%nat) by (intros x H; assert (r4 = r) as -> by congruence; lia).
  destruct ((55296 <=? u) && (u <? 57344)); [|apply Q]. destruct r4 as [|x [|y r6]]; try apply Q. destruct ((bz x =? 92) && (bz y =? 117)); [|apply Q].
  destruct (hex4 r6) as [[v r8]|] eqn:E8; [|apply Q]. apply H4 in E8. destruct ((u <? 56320) && (56320 <=? v) && (v <? 57344)); [|apply Q].
  intro H. assert (r8 = r) as -> by congruence. cbn [length] in E. lia.
Qed.
Lemma jtok_len s e r : jtok s = Some (e, r) -> (length r < length s)%nat.
Proof.
  destruct s as [|b t]; [discriminate|]. cbn [jtok length]. destruct (bz b <? 32); [discriminate|]. destruct (bz b =? 92); [intro H; apply jescape_len in H; lia|].
  destruct (bz b <? 128); [intro H; assert (t = r) as -> by congruence; lia|]. destruct (utf8_head (b :: t)) as [[p u]|] eqn:E.
  - apply utf8_head_inv in E. destruct E as (w & _ & _ & P & Q). intro H. assert (u = r) as -> by congruence. apply (f_equal (@length byte)) in Q. rewrite app_length in Q. cbn [length] in Q.
    assert (1 <= length p)%nat; [|lia]. rewrite P. unfold utf8_enc. destruct (w <? 128); [cbn; lia|]. destruct (w <? 2048); [cbn; lia|]. destruct (w <? 65536); cbn; lia.
  - intro H. assert (t = r) as -> by congruence. lia.
Qed.
Lemma jbody_mono f : forall g s x, (f <= g)%nat -> jbody f s = Some x -> jbody g s = Some x.
Proof.
  induction f as [|f IH]; intros g s x L H; [discriminate H|]. destruct g as [|g]; [lia|]. cbn [jbody] in *. destruct s as [|b r]; [discriminate H|].
  destruct (bz b =? 34); [exact H|]. destruct (jtok (b :: r)) as [[e s']|]; [|discriminate H]. destruct (jbody f s') as [[k u]|] eqn:E; [|discriminate H]. rewrite (IH g _ _ ltac:(lia) E). exact H.
Qed.
Lemma jbody_fuel f s x : jbody f s = Some x -> jstr_body s = Some x.
Proof.
  change (jstr_body s) with (jbody (S (length s)) s). remember (S (length s)) as m eqn:M. revert s m x M. induction f as [|f IH]; intros s m x -> H; [discriminate H|]. cbn [jbody] in *. destruct s as [|b r]; [discriminate H|].
  destruct (bz b =? 34); [exact H|]. destruct (jtok (b :: r)) as [[e s']|] eqn:T; [|discriminate H]. destruct (jbody f s') as [[k u]|] eqn:E; [|discriminate H].
  apply (IH _ _ _ eq_refl) in E. apply jtok_len in T. cbn [length] in T |- *. rewrite (jbody_mono (S (length s')) (S (length r)) s' _ ltac:(lia) E). exact H.
Qed.
Lemma jstr_body_eq s : jstr_body s = match s with
  | [] => None
  | b :: r => if bz b =? 34 then Some ([], r) else match jtok s with
      | Some (e, s') => match jstr_body s' with Some (k, u) => Some (e ++ k, u) | None => None end
      | None => None end end.
Proof.
  destruct s as [|b r]; [reflexivity|]. change (jstr_body (b :: r)) with (jbody (S (length (b :: r))) (b :: r)). remember (length (b :: r)) as m eqn:M. cbn [jbody]. subst m. destruct (bz b =? 34); [reflexivity|].
  destruct (jtok (b :: r)) as [[e s']|] eqn:T; [|reflexivity]. apply jtok_len in T. cbn [length] in *.
  destruct (jbody (S (length r)) s') as [x|] eqn:E.
  - rewrite (jbody_fuel _ _ _ E). reflexivity.
  - destruct (jstr_body s') as [x|] eqn:E'; [|reflexivity]. change (jstr_body s') with (jbody (S (length s')) s') in E'. rewrite (jbody_mono (S (length s')) (S (length r)) s' _ ltac:(lia) E') in E. discriminate E.
Qed.

Lemma utf8_enc_ne u : utf8_enc u <> [].
Proof. unfold utf8_enc. destruct (u <? 128); [discriminate|]. destruct (u <? 2048); [discriminate|]. destruct (u <? 65536); discriminate. Qed.
(** what the grammar derives is decoded *)
Lemma jchars_decoded raw k r : jchars raw k -> jstr_body (raw ++ zb 34 :: r) = Some (k, r).
Proof.
  intro J. induction J as [|b s k R N1 N2 J IH|u s k S L J IH|b s k L NO J IH|c v s k I J IH|a b c d u s k HV S J IH|a b c d a' b' c' d' u v s k HV HV' RU RV J IH|a b c d u s k HV RU NO J IH].
  - reflexivity.
  - cbn [app]. rewrite jstr_body_eq. replace (bz b =? 34) with false by lia. cbn [jtok].
    replace (bz b <? 32) with false by lia. replace (bz b =? 92) with false by lia. replace (bz b <? 128) with true by lia. rewrite IH. reflexivity.
  - pose proof (utf8_head_enc u (s ++ zb 34 :: r) S L) as HE. pose proof (utf8_enc_high u S L) as HH. pose proof (utf8_enc_ne u) as NE.
    assert (G : jtok ((utf8_enc u ++ s) ++ zb 34 :: r) = Some (utf8_enc u, s ++ zb 34 :: r) /\ exists b t, (utf8_enc u ++ s) ++ zb 34 :: r = b :: t /\ (bz b =? 34) = false).
    { rewrite <- app_assoc. destruct (utf8_enc u) as [|b t]; [congruence|]. apply Forall_inv in HH. cbn [app] in *. split; [|exists b, (t ++ s ++ zb 34 :: r); split; [reflexivity|lia]].
      cbn [jtok]. replace (bz b <? 32) with false by lia. replace (bz b =? 92) with false by lia. replace (bz b <? 128) with false by lia. rewrite HE. reflexivity. }
    destruct G as (G & b & t & E & Q). rewrite jstr_body_eq, G, IH. rewrite E. cbn iota. rewrite Q. reflexivity.
  - cbn [app]. rewrite jstr_body_eq. replace (bz b =? 34) with false by lia. cbn [jtok].
    replace (bz b <? 32) with false by lia. replace (bz b =? 92) with false by lia. replace (bz b <? 128) with false by lia.
    destruct (utf8_head (b :: s ++ zb 34 :: r)) as [[p t]|] eqn:E.
    + exfalso. apply utf8_head_inv in E. destruct E as (u & S & Lu & -> & E). change (b :: s ++ zb 34 :: r) with ((b :: s) ++ zb 34 :: r) in E.
      apply before_quote in E; [|apply high_no_quote, utf8_enc_high; assumption]. destruct E as [w E]. exact (NO u w S E).
    + rewrite IH. reflexivity.
  - cbn [app]. rewrite jstr_body_eq. change (bz (zb 92) =? 34) with false. cbn iota. cbn [jtok]. change (bz (zb 92) <? 32) with false. change (bz (zb 92) =? 92) with true. cbn iota.
    assert (G : jescape (c :: s ++ zb 34 :: r) = Some ([zb v], s ++ zb 34 :: r)).
    { cbn [jescape]. cbn [In] in I. repeat (destruct I as [I|I]; [assert (Q : bz c = _) by (symmetry; exact (f_equal fst I)); assert (V : v = _) by (symmetry; exact (f_equal snd I)); cbn [fst snd] in Q, V; rewrite Q, V;
        cbn [Z.eqb Pos.eqb orb]; rewrite ?(bz_eq _ _ Q); reflexivity|]). destruct I. }
    rewrite G, IH. reflexivity.
  - cbn [app]. rewrite jstr_body_eq. change (bz (zb 92) =? 34) with false. cbn iota. cbn [jtok]. change (bz (zb 92) <? 32) with false. change (bz (zb 92) =? 92) with true. cbn iota.
    cbn [jescape]. change (bz (zb 117)) with 117. cbn [Z.eqb Pos.eqb orb].
    assert (E : hex4 (a :: b :: c :: d :: s ++ zb 34 :: r) = Some (u, s ++ zb 34 :: r)) by (apply hex4_spec; exists a, b, c, d; split; [reflexivity|exact HV]).
    rewrite E. pose proof (hex_value_range _ _ _ _ _ HV). unfold scalar in S. replace ((55296 <=? u) && (u <? 57344)) with false by lia. rewrite IH. reflexivity.
  - cbn [app]. rewrite jstr_body_eq. change (bz (zb 92) =? 34) with false. cbn iota. cbn [jtok]. change (bz (zb 92) <? 32) with false. change (bz (zb 92) =? 92) with true. cbn iota.
    cbn [jescape]. change (bz (zb 117)) with 117. change (bz (zb 92)) with 92. cbn [Z.eqb Pos.eqb orb andb].
    match goal with |- context [hex4 (a :: b :: c :: d :: ?t)] => assert (E : hex4 (a :: b :: c :: d :: t) = Some (u, t)) by (apply hex4_spec; exists a, b, c, d; split; [reflexivity|exact HV]) end.
    assert (E' : hex4 (a' :: b' :: c' :: d' :: s ++ zb 34 :: r) = Some (v, s ++ zb 34 :: r)) by (apply hex4_spec; exists a', b', c', d'; split; [reflexivity|exact HV']).
    rewrite E, E'. replace ((55296 <=? u) && (u <? 57344)) with true by lia. change (bz (zb 92)) with 92. change (bz (zb 117)) with 117. cbn [Z.eqb Pos.eqb andb].
    replace ((u <? 56320) && (56320 <=? v) && (v <? 57344)) with true by lia. cbn iota. rewrite IH.
    replace ((u - 55296) * 1024 + (v - 56320) + 65536) with (65536 + (u - 55296) * 1024 + (v - 56320)) by lia. reflexivity.
  - cbn [app]. rewrite jstr_body_eq. change (bz (zb 92) =? 34) with false. cbn iota. cbn [jtok]. change (bz (zb 92) <? 32) with false. change (bz (zb 92) =? 92) with true. cbn iota.
    assert (G : jescape (zb 117 :: a :: b :: c :: d :: s ++ zb 34 :: r) = Some (utf8_bad, s ++ zb 34 :: r)); [|rewrite G, IH; reflexivity].
    cbn [jescape]. change (bz (zb 117)) with 117. cbn [Z.eqb Pos.eqb orb].
    assert (E : hex4 (a :: b :: c :: d :: s ++ zb 34 :: r) = Some (u, s ++ zb 34 :: r)) by (apply hex4_spec; exists a, b, c, d; split; [reflexivity|exact HV]).
    rewrite E. replace ((55296 <=? u) && (u <? 57344)) with true by lia.
    destruct (s ++ zb 34 :: r) as [|x [|y r6]] eqn:ES; try reflexivity. destruct ((bz x =? 92) && (bz y =? 117)) eqn:XY; [|reflexivity].
    destruct (hex4 r6) as [[v r8]|] eqn:E6; [|reflexivity]. destruct ((u <? 56320) && (56320 <=? v) && (v <? 57344)) eqn:UV; [|reflexivity].
    exfalso. apply hex4_spec in E6. destruct E6 as (a' & b' & c' & d' & -> & HV').
    assert (x = zb 92) as -> by (apply bz_eq; lia). assert (y = zb 117) as -> by (apply bz_eq; lia).
    change (s ++ zb 34 :: r = [zb 92; zb 117; a'; b'; c'; d'] ++ r8) in ES. apply before_quote in ES.
    + destruct ES as [w ->]. apply (NO a' b' c' d' v w HV'); [lia|lia|reflexivity].
    + constructor; [discriminate|]. constructor; [discriminate|]. exact (hex_value_digits _ _ _ _ _ HV').
Qed.
(** and nothing else is *)
Lemma decoded_jchars n : forall s k r, (length s <= n)%nat -> jstr_body s = Some (k, r) -> exists raw, s = raw ++ zb 34 :: r /\ jchars raw k.
Proof.
  induction n as [|n IH]; intros s k r L H.
  { destruct s; [discriminate H|cbn [length] in L; lia]. }
  rewrite jstr_body_eq in H. destruct s as [|b t]; [discriminate H|]. destruct (bz b =? 34) eqn:Q.
  { exists []. assert (k = [] /\ r = t) as [-> ->] by (split; congruence). split; [|constructor]. cbn [app]. f_equal. apply bz_eq. lia. }
  destruct (jtok (b :: t)) as [[e s']|] eqn:T; [|discriminate H]. destruct (jstr_body s') as [[k' u]|] eqn:B; [|discriminate H].
  assert (k = e ++ k') as -> by congruence. assert (u = r) as -> by congruence. clear H. pose proof (jtok_len _ _ _ T) as LT. cbn [length] in L, LT.
  destruct (IH s' k' r ltac:(lia) B) as (raw & -> & J). clear IH B LT L. cbn [jtok] in T.
  destruct (bz b <? 32) eqn:R1; [discriminate T|]. destruct (bz b =? 92) eqn:R2.
  2:{ destruct (bz b <? 128) eqn:R3.
      - assert (e = [b]) as -> by congruence. assert (t = raw ++ zb 34 :: r) as -> by congruence. exists (b :: raw). split; [reflexivity|]. apply jc_plain; [lia|lia|lia|exact J].
      - destruct (utf8_head (b :: t)) as [[p w]|] eqn:U.
        + apply utf8_head_inv in U. destruct U as (v & S & Lv & P & E). assert (e = p) as -> by congruence. assert (w = raw ++ zb 34 :: r) as -> by congruence.
          exists (p ++ raw). split; [rewrite E, app_assoc; reflexivity|]. rewrite P. apply jc_utf8; assumption.
        + assert (e = utf8_bad) as -> by congruence. assert (t = raw ++ zb 34 :: r) as -> by congruence. exists (b :: raw). split; [reflexivity|]. apply jc_bad; [lia| |exact J].
          intros v w S E. destruct (Z_lt_le_dec v 128) as [V|V].
          * assert (Q1 : bz b = v); [|lia]. unfold utf8_enc in E. replace (v <? 128) with true in E by lia. cbn [app] in E. unfold scalar in S.
            assert (b = zb v) as -> by congruence. apply bzb. lia.
          * change (b :: raw ++ zb 34 :: r) with ((b :: raw) ++ zb 34 :: r) in U. rewrite E, <- app_assoc, (utf8_head_enc v _ S V) in U. discriminate U. }
  assert (b = zb 92) as -> by (apply bz_eq; lia). clear Q R1 R2. destruct t as [|c t]; [discriminate T|]. cbn [jescape] in T.
  assert (SI : forall v, In (bz c, v) [(34, 34); (92, 92); (47, 47); (98, 8); (102, 12); (110, 10); (114, 13); (116, 9)] ->
    Some ([zb v], t) = Some (e, raw ++ zb 34 :: r) -> exists raw0, zb 92 :: c :: t = raw0 ++ zb 34 :: r /\ jchars raw0 (e ++ k')).
  { intros v I H. assert (e = [zb v]) as -> by congruence. assert (t = raw ++ zb 34 :: r) as -> by congruence. exists (zb 92 :: c :: raw). split; [reflexivity|]. exact (jc_esc c v raw k' I J). }
  destruct ((bz c =? 34) || (bz c =? 92) || (bz c =? 47)) eqn:C1.
  { replace [c] with [zb (bz c)] in T by (rewrite zb_bz; reflexivity). apply (SI (bz c)); [|exact T].
    assert (bz c = 34 \/ bz c = 92 \/ bz c = 47) as [-> | [-> | ->]] by lia; cbn; tauto. }
  destruct (bz c =? 98) eqn:C2. { apply (SI 8); [|exact T]. replace (bz c) with 98 by lia. cbn; tauto. }
  destruct (bz c =? 102) eqn:C3. { apply (SI 12); [|exact T]. replace (bz c) with 102 by lia. cbn; tauto. }
  destruct (bz c =? 110) eqn:C4. { apply (SI 10); [|exact T]. replace (bz c) with 110 by lia. cbn; tauto. }
  destruct (bz c =? 114) eqn:C5. { apply (SI 13); [|exact T]. replace (bz c) with 114 by lia. cbn; tauto. }
  destruct (bz c =? 116) eqn:C6. { apply (SI 9); [|exact T]. replace (bz c) with 116 by lia. cbn; tauto. }
  destruct (bz c =? 117) eqn:C7; [|discriminate T]. assert (c = zb 117) as -> by (apply bz_eq; lia). clear C1 C2 C3 C4 C5 C6 C7 SI.
  destruct (hex4 t) as [[v r4]|] eqn:E4; [|discriminate T]. apply hex4_spec in E4. destruct E4 as (a & b & c & d & -> & HV). pose proof (hex_value_range _ _ _ _ _ HV) as RV.
  destruct ((55296 <=? v) && (v <? 57344)) eqn:SU.
  2:{ assert (e = utf8_enc v) as -> by congruence. assert (r4 = raw ++ zb 34 :: r) as -> by congruence. exists (zb 92 :: zb 117 :: a :: b :: c :: d :: raw). split; [reflexivity|].
      apply jc_u; [exact HV|unfold scalar; lia|exact J]. }
  assert (LONE : (forall a' b' c' d' v' t, hex_value [a'; b'; c'; d'] v' -> 56320 <= v' < 57344 -> v < 56320 -> r4 <> zb 92 :: zb 117 :: a' :: b' :: c' :: d' :: t) ->
    Some (utf8_bad, r4) = Some (e, raw ++ zb 34 :: r) -> exists raw0, zb 92 :: zb 117 :: a :: b :: c :: d :: r4 = raw0 ++ zb 34 :: r /\ jchars raw0 (e ++ k')).
  { intros NO H. assert (e = utf8_bad) as -> by congruence. assert (r4 = raw ++ zb 34 :: r) as -> by congruence. exists (zb 92 :: zb 117 :: a :: b :: c :: d :: raw). split; [reflexivity|].
    apply (jc_lone a b c d v raw k' HV); [lia| |exact J]. intros a' b' c' d' v' w HV' Rv' Lv Er. apply (NO a' b' c' d' v' (w ++ zb 34 :: r) HV' Rv' Lv). rewrite Er. reflexivity. }
  destruct r4 as [|x [|y r6]]; [apply LONE; [intros; discriminate|exact T]|apply LONE; [intros; discriminate|exact T]|].
  destruct ((bz x =? 92) && (bz y =? 117)) eqn:XY.
  2:{ apply LONE; [|exact T]. intros a' b' c' d' v' w _ _ _ Er. assert (x = zb 92) as -> by congruence. assert (y = zb 117) as -> by congruence. discriminate XY. }
  assert (x = zb 92) as -> by (apply bz_eq; lia). assert (y = zb 117) as -> by (apply bz_eq; lia). clear XY.
  destruct (hex4 r6) as [[v' r8]|] eqn:E8.
  2:{ apply LONE; [|exact T]. intros a' b' c' d' v' w HV' _ _ Er. assert (r6 = a' :: b' :: c' :: d' :: w) as -> by congruence.
      assert (N : hex4 (a' :: b' :: c' :: d' :: w) = Some (v', w)) by (apply hex4_spec; exists a', b', c', d'; split; [reflexivity|exact HV']). rewrite N in E8. discriminate E8. }
  destruct ((v <? 56320) && (56320 <=? v') && (v' <? 57344)) eqn:VV.
  2:{ apply LONE; [|exact T]. intros a' b' c' d' v2 w HV' R2 Lv Er. assert (r6 = a' :: b' :: c' :: d' :: w) as -> by congruence.
      assert (N : hex4 (a' :: b' :: c' :: d' :: w) = Some (v2, w)) by (apply hex4_spec; exists a', b', c', d'; split; [reflexivity|exact HV']). rewrite N in E8.
      assert (v2 = v') as -> by congruence. lia. }
  apply hex4_spec in E8. destruct E8 as (a' & b' & c' & d' & -> & HV'). assert (r8 = raw ++ zb 34 :: r) as -> by congruence.
  exists (zb 92 :: zb 117 :: a :: b :: c :: d :: zb 92 :: zb 117 :: a' :: b' :: c' :: d' :: raw). split; [reflexivity|].
  replace e with (utf8_enc (65536 + (v - 55296) * 1024 + (v' - 56320))) by (assert (e = utf8_enc ((v - 55296) * 1024 + (v' - 56320) + 65536)) as -> by congruence; f_equal; lia).
  apply jc_pair; [exact HV|exact HV'|lia|lia|exact J].
Qed.
(** a string literal is decoded exactly as the grammar says *)
Theorem C58_strings s k r : jstr_body s = Some (k, r) <-> exists raw, s = raw ++ zb 34 :: r /\ jchars raw k.
Proof. split; [intro H; apply (decoded_jchars (length s)); [lia|exact H]|intros (raw & -> & J); apply jchars_decoded, J]. Qed.
(** more input behind the closing quote changes nothing *)
Lemma jstr_body_app s k r t : jstr_body s = Some (k, r) -> jstr_body (s ++ t) = Some (k, r ++ t).
Proof. intro H. apply C58_strings in H. destruct H as (raw & -> & J). rewrite <- app_assoc. cbn [app]. apply jchars_decoded, J. Qed.
