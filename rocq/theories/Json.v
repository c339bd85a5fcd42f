(** Json.v -- the part of Go's encoding/json used by /repo.

    Used by eddsacmp/keygen/round_4.go 83 (json.Marshal(party.save)), eddsacmp/onsign/local_party.go
    (json.Unmarshal of the key data) and crypto/ecpoint.go 226-268.  Model of an external library.
    String literals are decoded in JsonStr.v.  Simplifications: the encoder writes strings verbatim, which is what Go does
    for the characters of [safe_ch], the only ones this code base writes; Go's nesting limit of 10000 is not modelled. *)
From Verif Require Import Base BigInt Text JsonStr.

Inductive json :=
| JNull
| JBool (b : bool)
| JNum (tok : bytes)
| JStr (s : bytes)
| JArr (l : list json)
| JObj (l : list (bytes * json)).

Definition jsize_list (f : json -> nat) (l : list json) : nat := fold_right (fun v a => S (f v + a)) O l.
Fixpoint jsize (v : json) : nat :=
  match v with
  | JArr l => S (fold_right (fun v a => S (jsize v + a)) O l)
  | JObj l => S (fold_right (fun kv a => S (jsize (snd kv) + a)) O l)
  | _ => 1
  end.

Definition q : byte := zb 34.
Definition jstr (s : bytes) : bytes := q :: s ++ [q].

(** json.Marshal *)
Fixpoint jenc (v : json) : bytes :=
  match v with
  | JNull => str "null"
  | JBool true => str "true"
  | JBool false => str "false"
  | JNum t => t
  | JStr s => jstr s
  | JArr l => [zb 91] ++ join (zb 44) (map jenc l) ++ [zb 93]
  | JObj l => [zb 123] ++ join (zb 44) (map (fun kv => jstr (fst kv) ++ [zb 58] ++ jenc (snd kv)) l) ++ [zb 125]
  end.

Definition is_ws (b : byte) : bool := let z := bz b in (z =? 32) || (z =? 9) || (z =? 10) || (z =? 13).
Fixpoint skipws (s : bytes) : bytes := match s with b :: r => if is_ws b then skipws r else s | [] => [] end.

Definition is_dig (b : byte) : bool := (48 <=? bz b) && (bz b <=? 57).
Definition is_numch (b : byte) : bool :=
  let z := bz b in is_dig b || (z =? 43) || (z =? 45) || (z =? 46) || (z =? 69) || (z =? 101).
Fixpoint take_num (s : bytes) : bytes * bytes :=
  match s with
  | b :: r => if is_numch b then let '(t, u) := take_num r in (b :: t, u) else ([], s)
  | [] => ([], [])
  end.
Fixpoint digs (s : bytes) : bytes := match s with b :: r => if is_dig b then digs r else s | [] => [] end.
(** one or more digits *)
Definition digs1 (s : bytes) : option bytes :=
  match s with b :: r => if is_dig b then Some (digs r) else None | [] => None end.
Definition num_exp (s : bytes) : bool :=
  match s with
  | [] => true
  | b :: r => if (bz b =? 69) || (bz b =? 101) then
      let r' := match r with c :: t => if (bz c =? 43) || (bz c =? 45) then t else r | [] => r end in
      match digs1 r' with Some [] => true | _ => false end else false
  end.
Definition num_frac (s : bytes) : bool :=
  match s with
  | b :: r => if bz b =? 46 then match digs1 r with Some t => num_exp t | None => false end else num_exp s
  | [] => true
  end.
(** the JSON number grammar *)
Definition num_ok (t : bytes) : bool :=
  let t := match t with b :: r => if bz b =? 45 then r else t | [] => [] end in
  match t with
  | b :: r => if bz b =? 48 then num_frac r else if is_dig b then num_frac (digs r) else false
  | [] => false
  end.

Definition lit_dec (l s : bytes) : option bytes :=
  if bytes_eqb l (firstn (length l) s) then Some (skipn (length l) s) else None.

Fixpoint jval (f : nat) (s : bytes) : option (json * bytes) :=
  match f with
  | O => None
  | S f =>
    match skipws s with
    | [] => None
    | b :: r =>
      let z := bz b in
      if z =? 123 then
        match skipws r with
        | c :: r' => if bz c =? 125 then Some (JObj [], r')
                     else match jmems f r with Some (l, u) => Some (JObj l, u) | None => None end
        | [] => None
        end
      else if z =? 91 then
        match skipws r with
        | c :: r' => if bz c =? 93 then Some (JArr [], r')
                     else match jelems f r with Some (l, u) => Some (JArr l, u) | None => None end
        | [] => None
        end
      else if z =? 34 then match jstr_body r with Some (t, u) => Some (JStr t, u) | None => None end
      else if z =? 116 then match lit_dec (str "true") (b :: r) with Some u => Some (JBool true, u) | None => None end
      else if z =? 102 then match lit_dec (str "false") (b :: r) with Some u => Some (JBool false, u) | None => None end
      else if z =? 110 then match lit_dec (str "null") (b :: r) with Some u => Some (JNull, u) | None => None end
      else let '(t, u) := take_num (b :: r) in if num_ok t then Some (JNum t, u) else None
    end
  end
with jelems (f : nat) (s : bytes) : option (list json * bytes) :=
  match f with
  | O => None
  | S f =>
    match jval f s with
    | None => None
    | Some (v, r) =>
      match skipws r with
      | c :: r' => if bz c =? 93 then Some ([v], r')
                   else if bz c =? 44 then match jelems f r' with Some (l, u) => Some (v :: l, u) | None => None end
                   else None
      | [] => None
      end
    end
  end
with jmems (f : nat) (s : bytes) : option (list (bytes * json) * bytes) :=
  match f with
  | O => None
  | S f =>
    match skipws s with
    | b :: s' =>
      if bz b =? 34 then
        match jstr_body s' with
        | None => None
        | Some (k, r) =>
          match skipws r with
          | c :: r1 => if bz c =? 58 then
              match jval f r1 with
              | None => None
              | Some (v, r2) =>
                match skipws r2 with
                | d :: r3 => if bz d =? 125 then Some ([(k, v)], r3)
                             else if bz d =? 44 then
                               match jmems f r3 with Some (l, u) => Some ((k, v) :: l, u) | None => None end
                             else None
                | [] => None
                end
              end else None
          | [] => None
          end
        end
      else None
    | [] => None
    end
  end.

(** json.Unmarshal into a generic value: one value, then only white space *)
Definition jdec (s : bytes) : option json :=
  match jval (S (length s)) s with
  | Some (v, r) => match skipws r with [] => Some v | _ => None end
  | None => None
  end.

(** ** Round trip *)
(** ASCII without control characters, quote, backslash and the characters json.Marshal writes as escapes (ampersand, less, greater) *)
Definition safe_ch (b : byte) : bool :=
  (32 <=? bz b) && (bz b <? 127) && negb ((bz b =? 34) || (bz b =? 92) || (bz b =? 38) || (bz b =? 60) || (bz b =? 62)).
Fixpoint jok (v : json) : Prop :=
  match v with
  | JNum t => num_ok t = true /\ forallb is_numch t = true
  | JStr s => forallb safe_ch s = true
  | JArr l => fold_right (fun v P => jok v /\ P) True l
  | JObj l => fold_right (fun kv P => (forallb safe_ch (fst kv) = true /\ jok (snd kv)) /\ P) True l
  | _ => True
  end.
Definition stop (s : bytes) : Prop := match s with b :: _ => is_numch b = false | [] => True end.

Lemma jstr_body_ok s r : forallb safe_ch s = true -> jstr_body (s ++ q :: r) = Some (s, r).
Proof.
  intro F. apply jchars_decoded. induction s as [|b s IH]; [constructor|]. cbn [forallb] in F. apply andb_prop in F. destruct F as [Hb Hs].
  unfold safe_ch in Hb. apply jc_plain; [lia|lia|lia|exact (IH Hs)].
Qed.

Lemma take_num_ok t r : forallb is_numch t = true -> stop r -> take_num (t ++ r) = (t, r).
Proof.
  induction t as [|b t IH]; intros Ht Hr.
  - destruct r as [|b r]; [reflexivity|]. cbn. cbn in Hr. rewrite Hr. reflexivity.
  - cbn [forallb] in Ht. apply andb_prop in Ht. destruct Ht as [Hb Ht]. cbn [app take_num]. rewrite Hb, IH; auto.
Qed.

Lemma numch_facts b : is_numch b = true ->
  is_ws b = false /\ (bz b =? 123) = false /\ (bz b =? 91) = false /\ (bz b =? 34) = false /\
  (bz b =? 116) = false /\ (bz b =? 102) = false /\ (bz b =? 110) = false /\ (bz b =? 93) = false /\ (bz b =? 125) = false.
Proof. unfold is_numch, is_dig, is_ws. lia. Qed.

Lemma num_nonempty t : num_ok t = true -> exists b r, t = b :: r.
Proof. destruct t; [discriminate|eauto]. Qed.

Lemma jenc_head v : jok v -> exists b r, jenc v = b :: r /\ is_ws b = false /\ (bz b =? 93) = false /\ (bz b =? 125) = false.
Proof.
  destruct v as [|[]|t|s|l|l]; intro Hv;
    try (eexists; eexists; split; [reflexivity|repeat split; reflexivity]).
  destruct Hv as [Hn Hc]. destruct (num_nonempty t Hn) as (b & r & ->). cbn [forallb] in Hc.
  apply andb_prop in Hc. destruct Hc as [Hb _]. apply numch_facts in Hb. exists b, r. cbn [jenc]. tauto.
Qed.

Lemma join_cons (c : byte) x y l : join c (x :: y :: l) = x ++ c :: join c (y :: l).
Proof. reflexivity. Qed.

Lemma jenc_length v : jok v -> (1 <= length (jenc v))%nat.
Proof. intro Hv. destruct (jenc_head v Hv) as (b & r & -> & _). cbn; lia. Qed.

Theorem jval_ok v : jok v -> forall f rest, (length (jenc v) <= f)%nat -> stop rest ->
  jval f (jenc v ++ rest) = Some (v, rest).
Proof.
  remember (jsize v) as m eqn:Em. assert (Hm : (jsize v <= m)%nat) by lia. clear Em. revert v Hm.
  induction m as [m IH] using lt_wf_ind. intros v Hm Hv f rest Hf Hst.
  destruct f as [|f]; [pose proof (jenc_length v Hv); lia|].
  destruct v as [|b|t|s|l|l].
  - reflexivity.
  - destruct b; reflexivity.
  - destruct Hv as [Hn Hc]. destruct (num_nonempty t Hn) as (b & r & ->).
    pose proof Hc as Hc'. cbn [forallb] in Hc'. apply andb_prop in Hc'. destruct Hc' as [Hb _].
    destruct (numch_facts b Hb) as (W & A1 & A2 & A3 & A4 & A5 & A6 & _).
    cbn [jval jenc app skipws]. rewrite W. cbn beta iota zeta. rewrite A1, A2, A3, A4, A5, A6.
    change (b :: r ++ rest) with ((b :: r) ++ rest). rewrite take_num_ok by auto. rewrite Hn. reflexivity.
  - cbn [jval jenc jstr app skipws]. replace (is_ws q) with false by reflexivity. cbn beta iota zeta.
    replace (bz q) with 34 by reflexivity. cbn [Z.eqb Pos.eqb]. rewrite <- app_assoc. cbn [app].
    rewrite jstr_body_ok by exact Hv. reflexivity.
  - (* arrays *)
    assert (HE : forall l f rest, l <> [] -> (fold_right (fun v a => S (jsize v + a)) O l < m)%nat ->
        fold_right (fun v P => jok v /\ P) True l ->
        (length (join (zb 44) (map jenc l) ++ [zb 93]) <= f)%nat ->
        jelems f (join (zb 44) (map jenc l) ++ [zb 93] ++ rest) = Some (l, rest)).
    { clear l Hm Hv Hf f Hst rest. induction l as [|v l IHl]; intros f rest Hne Hs Hl Hf; [congruence|].
      cbn [fold_right] in Hs, Hl. destruct Hl as [Hv Hl]. destruct f as [|f]; [rewrite app_length in Hf; cbn in Hf; lia|].
      cbn [jelems]. destruct l as [|w l].
      - cbn [map join] in Hf |- *. rewrite app_length in Hf. cbn [length] in Hf.
        rewrite (IH (jsize v)); [|lia|lia|exact Hv|lia|reflexivity].
        cbn [app skipws]. reflexivity.
      - cbn [map] in Hf |- *. rewrite join_cons in Hf |- *. rewrite <- !app_assoc. cbn [app].
        rewrite <- !app_assoc in Hf. cbn [app] in Hf. rewrite app_length in Hf. cbn [length] in Hf.
        rewrite (IH (jsize v)); [|lia|lia|exact Hv|lia|reflexivity].
        cbn [skipws]. replace (is_ws (zb 44)) with false by reflexivity.
        replace (bz (zb 44)) with 44 by reflexivity. cbn [Z.eqb Pos.eqb].
        assert (X : jelems f (join (zb 44) (map jenc (w :: l)) ++ [zb 93] ++ rest) = Some (w :: l, rest)).
        { apply IHl; [congruence|lia|exact Hl|]. cbn [map]. lia. }
        cbn [map app] in X. rewrite X. reflexivity. }
    cbn [jval jenc]. cbn [app].
    cbn [skipws]. replace (is_ws _) with false by reflexivity.
    destruct l as [|v l].
    + reflexivity.
    + assert (Hd : exists b r, join (zb 44) (map jenc (v :: l)) = b :: r /\ is_ws b = false /\ (bz b =? 93) = false).
      { destruct (jenc_head v (proj1 Hv)) as (b & r & E & W & N & _). cbn [map]. destruct (map jenc l).
        - cbn [join]. rewrite E. eauto.
        - rewrite join_cons, E. eexists _, _. cbn [app]. split; [reflexivity|auto]. }
      destruct Hd as (b & r & Ej & W & N).
      assert (HX : jelems f (join (zb 44) (map jenc (v :: l)) ++ [zb 93] ++ rest) = Some (v :: l, rest)).
      { apply HE; [congruence| |exact Hv|].
        - cbn [jsize] in Hm. lia.
        - cbn [jenc] in Hf. cbn [app length] in Hf. lia. }
      cbn [app] in HX. rewrite <- app_assoc. cbn [app].
      match goal with |- context [bz ?b =? 123] => change (bz b =? 123) with false; change (bz b =? 91) with true end.
      cbn beta iota zeta. rewrite Ej in HX |- *. cbn [app] in HX |- *. cbn [skipws]. rewrite W, N. rewrite HX. reflexivity.
  - (* objects *)
    assert (HE : forall l f rest, l <> [] -> (fold_right (fun kv a => S (jsize (snd kv) + a)) O l < m)%nat ->
        fold_right (fun kv P => (forallb safe_ch (fst kv) = true /\ jok (snd kv)) /\ P) True l ->
        (length (join (zb 44) (map (fun kv => jstr (fst kv) ++ [zb 58] ++ jenc (snd kv)) l) ++ [zb 125]) <= f)%nat ->
        jmems f (join (zb 44) (map (fun kv => jstr (fst kv) ++ [zb 58] ++ jenc (snd kv)) l) ++ [zb 125] ++ rest) = Some (l, rest)).
    { clear l Hm Hv Hf f Hst rest. induction l as [|[k v] l IHl]; intros f rest Hne Hs Hl Hf; [congruence|].
      cbn [fold_right fst snd] in Hs, Hl. destruct Hl as [[Hk Hv] Hl]. destruct f as [|f]; [rewrite app_length in Hf; cbn in Hf; lia|].
      assert (Hj : forall X, jstr k ++ X = q :: k ++ q :: X) by (intro; unfold jstr; cbn [app]; rewrite <- app_assoc; reflexivity).
      cbn [jmems]. destruct l as [|w l].
      - cbn [map join fst snd] in Hf |- *. rewrite <- !app_assoc in Hf |- *. rewrite Hj in Hf |- *.
        cbn [skipws]. replace (is_ws q) with false by reflexivity. replace (bz q =? 34) with true by reflexivity.
        rewrite jstr_body_ok by exact Hk. cbn [app skipws].
        replace (is_ws _) with false by reflexivity.
        match goal with |- context [bz ?b =? 58] => change (bz b =? 58) with true end. cbn beta iota.
        rewrite (IH (jsize v)); [|lia|lia|exact Hv| |reflexivity].
        + cbn [app skipws]. reflexivity.
        + cbn [length app] in Hf. rewrite !app_length in Hf. cbn [length] in Hf. rewrite !app_length in Hf. lia.
      - cbn [map fst snd] in Hf |- *. rewrite join_cons in Hf |- *.
        change ((jstr (fst w) ++ [zb 58] ++ jenc (snd w)) :: map (fun kv => jstr (fst kv) ++ [zb 58] ++ jenc (snd kv)) l)
          with (map (fun kv => jstr (fst kv) ++ [zb 58] ++ jenc (snd kv)) (w :: l)) in Hf |- *.
        set (tl := join (zb 44) (map (fun kv => jstr (fst kv) ++ [zb 58] ++ jenc (snd kv)) (w :: l))) in *.
        assert (X : (length (tl ++ [zb 125]) <= f)%nat -> jmems f (tl ++ [zb 125] ++ rest) = Some (w :: l, rest))
          by (intro Hlen; apply IHl; [congruence|lia|exact Hl|exact Hlen]).
        rewrite <- !app_assoc in Hf |- *. rewrite Hj in Hf |- *.
        cbn [skipws]. replace (is_ws q) with false by reflexivity. replace (bz q =? 34) with true by reflexivity.
        rewrite jstr_body_ok by exact Hk. cbn [app skipws].
        replace (is_ws _) with false by reflexivity.
        match goal with |- context [bz ?b =? 58] => change (bz b =? 58) with true end. cbn beta iota.
        cbn [length app] in Hf. rewrite !app_length in Hf. cbn [length] in Hf. rewrite !app_length in Hf. cbn [length] in Hf.
        rewrite (IH (jsize v)); [|lia|lia|exact Hv|lia|reflexivity].
        cbn [app skipws]. replace (is_ws (zb 44)) with false by reflexivity.
        replace (bz (zb 44)) with 44 by reflexivity. cbn [Z.eqb Pos.eqb].
        cbn [app] in X. rewrite X by lia. reflexivity. }
    cbn [jval jenc]. cbn [app].
    cbn [skipws]. replace (is_ws _) with false by reflexivity.
    destruct l as [|[k v] l].
    + reflexivity.
    + set (txt := join (zb 44) (map (fun kv => jstr (fst kv) ++ [zb 58] ++ jenc (snd kv)) ((k, v) :: l))) in *.
      assert (Hd : exists r, txt = q :: r).
      { unfold txt. cbn [map fst snd]. destruct (map _ l).
        - cbn [join]. unfold jstr. cbn [app]. eauto.
        - rewrite join_cons. unfold jstr. cbn [app]. eauto. }
      destruct Hd as (r & Ej).
      assert (HX : jmems f (txt ++ [zb 125] ++ rest) = Some ((k, v) :: l, rest)).
      { apply HE; [congruence| |exact Hv|].
        - exact Hm.
        - change (length ([zb 123] ++ txt ++ [zb 125]) <= S f)%nat in Hf. cbn [app length] in Hf. apply le_S_n in Hf. exact Hf. }
      match goal with |- context [map ?g ((k, v) :: l)] => change (join (zb 44) (map g ((k, v) :: l))) with txt end.
      cbn [app] in HX. rewrite <- app_assoc. cbn [app].
      match goal with |- context [bz ?b =? 123] => change (bz b =? 123) with true end.
      cbn beta iota zeta. rewrite Ej in HX |- *. cbn [app] in HX |- *. cbn [skipws].
      replace (is_ws q) with false by reflexivity. replace (bz q =? 125) with false by reflexivity. rewrite HX. reflexivity.
Qed.

Theorem jdec_jenc v : jok v -> jdec (jenc v) = Some v.
Proof.
  intro Hv. unfold jdec. pose proof (jval_ok v Hv (S (length (jenc v))) [] ltac:(lia) I) as E.
  rewrite app_nil_r in E. rewrite E. reflexivity.
Qed.

(** integers as printed by big.Int.MarshalJSON *)
Lemma digs_all t : forallb is_dig t = true -> digs t = [].
Proof. induction t as [|b t IH]; [reflexivity|]. cbn [forallb digs]. intro E. apply andb_prop in E. destruct E as [-> E]. auto. Qed.
