(** MusigCtx.v -- package/github.com/btcsuite/btcd/btcec/v2/schnorr/musig2/context.go: Context and Session as a machine that
    takes one call at a time, in any order, on one context and any number of sessions of it.

    The context is shared by its sessions (they hold a pointer to it).  A call that panics leaves the state as the code has
    changed it up to there, since the caller may recover.  Public keys are points, [32]byte messages byte strings, partial
    signatures their scalars (CombineSig reads only S of what it is given; a nil signature is not modelled).  Of the SignOptions
    a caller may pass, WithFastSign and WithSortedKeys are modelled.  Nonces is the pair (PubNonce, SecNonce).  sort.Sort in
    place: the key set becomes the sorted one (sorting it again later, as the code does, is modelled where it is done). *)
From Verif Require Import Base BigInt NumTh AbGroup AbZ SecpPrimes Secp256k1 PropSecp Bip32 Bip340 Musig.
Local Notation N := n256k1.

(** context.go 13-61: the errors *)
Inductive err := ESignerNotInKeySet | EAllNonces | EAllSigs | EReuse | EFinalInvalid | ENoCombinedNonce | EInternalKey
  | ENotEnoughSigners | EAllSigners | ESignersNotSpecified | ENoEarlyNonce | EOther.
Inductive res :=
  | RPanic | RErr (e : err) | RBool (b : bool) | RNonces (n : bytes * bytes) | RPub (pn : bytes) | RKey (A : E)
  | RSession (i : nat) | RSig (s : Z) (R : E) | RFinal (o : option (Z * Z)) | RNum (n : nat) | RKeys (l : list E).
(** context.go 105-137 contextOptions; nil slices are None *)
Record copts := COpts { o_tweaks : list (bytes * bool); o_tap : option bytes; o_bip86 : bool; o_keys : option (list E); o_num : Z; o_early : bool }.
(** context.go 64-101 Context with the options *)
Record ctx := Ctx { c_d : Z; c_pub : E; c_sort : bool; c_tw : tweak; c_num : Z; c_keys : list E; c_comb : option agg; c_early : option (bytes * bytes) }.
(** context.go 432-448 Session *)
Record ses := Ses { z_local : option (bytes * bytes); z_pubs : list bytes; z_cn : option bytes; z_msg : bytes; z_our : option (Z * E); z_sigs : list Z; z_final : option (Z * Z) }.
Record world := World { w_ctx : ctx; w_ses : list ses }.
(** the exported methods: of Context *)
Inductive call :=
  | CRegister (A : E) | CEarly | CCombined | CInternal | CNumSigners | CKeys | CNew (ext : option (bytes * bytes)) (rnd : option bytes)
(** and of the i-th session *)
  | CPublic (i : nat) | CNumNonces (i : nat) | CNonce (i : nat) (pn : bytes) | CSign (i : nat) (m : bytes) (sort fast : bool) | CCombine (i : nat) (s : Z) | CFinal (i : nat).

Section Ctx.
  Variable TH : bytes -> bytes -> bytes.
  Variable srt : list E -> list E.
  Local Notation agg_keys := (agg_keys TH srt).

  (** context.go 283-297, 569-580, 627-649: which tweak option is in force *)
  Definition tweak_of (o : copts) : tweak := if o_bip86 o then Bip86 else match o_tap o with Some r => Taproot r | None => Tweaks (o_tweaks o) end.
  (** PublicKey.IsEqual *)
  Definition key_eqb (A B : E) : bool := (fst (aff A) =? fst (aff B)) && (snd (aff A) =? snd (aff B)).
  Definition with_keys (c : ctx) (ks : list E) (comb : option agg) : ctx := Ctx (c_d c) (c_pub c) (c_sort c) (c_tw c) (c_num c) ks comb (c_early c).
  Definition with_early (c : ctx) (e : option (bytes * bytes)) : ctx := Ctx (c_d c) (c_pub c) (c_sort c) (c_tw c) (c_num c) (c_keys c) (c_comb c) e.
  (** context.go 261-311 combineSignerKeys: None is a nil error.  The keys are sorted before AggregateKeys is called, and its
      result is stored even if it is an error *)
  Definition combine_keys (c : ctx) : ctx * option res :=
    if existsb (fun k => key_eqb k (c_pub c)) (c_keys c) then
      let ks := sorted srt (c_sort c) (c_keys c) in
      match agg_keys (c_keys c) (c_sort c) (c_tw c) with
      | Panic => (with_keys c ks (c_comb c), Some RPanic)
      | Ret None => (with_keys c ks None, Some (RErr EOther))
      | Ret (Some a) => (with_keys c ks (Some a), None)
      end
    else (c, Some (RErr ESignerNotInKeySet)).
  (** context.go 200-257 NewContext; [rnd] is what GenNonces reads.  make with a negative capacity panics *)
  Definition new_ctx (d : Z) (sort : bool) (o : copts) (rnd : option bytes) : ctx + res :=
    match parse_xonly (xb (zm d G)) with
    | None => inr (RErr EOther)
    | Some A =>
      match o_keys o with
      | Some ks => match combine_keys (Ctx d A sort (tweak_of o) (o_num o) ks None None) with (c, None) => inl c | (_, Some e) => inr e end
      | None =>
        if o_num o =? 0 then inr (RErr ESignersNotSpecified) else
        if o_num o <? 0 then inr RPanic else
        let c e := Ctx d A sort (tweak_of o) (o_num o) [A] None e in
        if o_early o then match rnd with None => inr (RErr EOther) | Some r => inl (c (Some (gen_nonces TH r [] [] [] []))) end
        else inl (c None)
      end
    end.
  Definition full (c : ctx) : bool := Z.of_nat (length (c_keys c)) =? c_num c.
  (** context.go 331-349 RegisterSigner *)
  Definition register (c : ctx) (A : E) : ctx * res :=
    if full c then (c, RErr EAllSigners) else
    let c := with_keys c (c_keys c ++ [A]) (c_comb c) in
    if full c then match combine_keys c with (c, None) => (c, RBool true) | (c, Some e) => (c, e) end else (c, RBool false).
  (** context.go 451-507 NewSession: the nonce pair *)
  Definition session_nonce (c : ctx) (ext : option (bytes * bytes)) (rnd : option bytes) : (bytes * bytes) + res :=
    match c_early c with
    | Some n => inl n
    | None =>
      match ext with
      | Some n => inl n
      | None =>
        match c_comb c with
        | None => inr RPanic
        | Some a => match rnd with None => inr (RErr EOther) | Some r => inl (gen_nonces TH r (be_fixed 32 (c_d c)) (xb (a_fin a)) [] []) end
        end
      end
    end.
  Definition new_session (w : world) (ext : option (bytes * bytes)) (rnd : option bytes) : world * res :=
    let c := w_ctx w in
    if negb (full c) then (w, RErr ENotEnoughSigners) else
    match session_nonce c ext rnd with
    | inr e => (World (with_early c None) (w_ses w), e)
    | inl n => (World (with_early c None) (w_ses w ++ [Ses (Some n) [fst n] None (repeat (zb 0) 32) None [] None]), RSession (length (w_ses w)))
    end.
  (** context.go 525-550 RegisterPubNonce *)
  Definition reg_nonce (c : ctx) (z : ses) (pn : bytes) : ses * res :=
    let done l := Z.of_nat (length l) =? c_num c in
    if done (z_pubs z) then (z, RErr EAllNonces) else
    let ps := z_pubs z ++ [pn] in
    let put cn := Ses (z_local z) ps cn (z_msg z) (z_our z) (z_sigs z) (z_final z) in
    if done ps then match agg_nonces ps with None => (put (z_cn z), RErr EOther) | Some cn => (put (Some cn), RBool true) end
    else (put (z_cn z), RBool false).
  (** context.go 555-602 Sign: the nonce is dropped whether or not a signature comes out *)
  Definition sign_session (c : ctx) (z : ses) (m : bytes) (sort fast : bool) : ctx * ses * res :=
    match z_local z with
    | None => (c, z, RErr EReuse)
    | Some n =>
      match z_cn z with
      | None => (c, z, RErr ENoCombinedNonce)
      | Some cn =>
        let c' := with_keys c (sorted srt sort (c_keys c)) (c_comb c) in
        match psign TH srt (snd n) (c_d c) cn (c_keys c) sort (c_tw c) m fast with
        | Panic => (c', z, RPanic)
        | Ret None => (c', Ses None (z_pubs z) (z_cn z) (z_msg z) (z_our z) (z_sigs z) (z_final z), RErr EOther)
        | Ret (Some (s, R)) => (c', Ses None (z_pubs z) (z_cn z) m (Some (s, R)) (z_sigs z ++ [s]) (z_final z), RSig s R)
        end
      end
    end.
  (** context.go 620-649: the combine options; the key set is sorted in place when they are applied *)
  Definition has_opts (tw : tweak) : bool := match tw with Tweaks [] => false | _ => true end.
  Definition sig_opts (c : ctx) (m : bytes) : outcome (option (E * Z * bytes)) :=
    if has_opts (c_tw c) then combine_opt TH srt (c_keys c) (c_sort c) (c_tw c) m else Ret None.
  (** context.go 607-665 CombineSig *)
  Definition combine_session (c : ctx) (z : ses) (s : Z) : ctx * ses * res :=
    let all l := (length l =? length (c_keys c))%nat in
    if all (z_sigs z) then (c, z, RErr EAllSigs) else
    let ss := z_sigs z ++ [s] in
    let put f := Ses (z_local z) (z_pubs z) (z_cn z) (z_msg z) (z_our z) ss f in
    if all ss then
      match z_our z with
      | None => (c, put (z_final z), RPanic)
      | Some (_, R) =>
        let c' := with_keys c (sorted srt (has_opts (c_tw c) && c_sort c) (c_keys c)) (c_comb c) in
        match sig_opts c (z_msg z), c_comb c with
        | Ret o, Some a =>
          let sg := combine TH R ss o in
          if bverify TH sg (z_msg z) (a_fin a) then (c', put (Some sg), RBool true) else (c', put (z_final z), RErr EFinalInvalid)
        | _, _ => (c', put (z_final z), RPanic)
        end
      end
    else (c, put (z_final z), RBool false).
  Definition at_ses (w : world) (i : nat) (f : ctx -> ses -> ctx * ses * res) : world * res :=
    match nth_error (w_ses w) i with
    | None => (w, RPanic)
    | Some z => let '(c, z', r) := f (w_ctx w) z in (World c (upd i z' (w_ses w)), r)
    end.
  (** one call; EarlySessionNonce 314-320, NumRegisteredSigners 352-354, CombinedKey 358-366, SigningKeys 374-379,
      TaprootInternalKey 386-398, PublicNonce 512-514, NumRegisteredNonces 518-520, FinalSig 668-670.  A session that does not
      exist is a nil pointer *)
  Definition step (w : world) (q : call) : world * res :=
    let c := w_ctx w in
    match q with
    | CRegister A => let '(c', r) := register c A in (World c' (w_ses w), r)
    | CEarly => (w, match c_early c with Some n => RNonces n | None => RErr ENoEarlyNonce end)
    | CCombined => (w, match c_comb c with Some a => RKey (a_fin a) | None => RErr ENotEnoughSigners end)
    | CInternal => (w, match c_comb c with
                       | None => RErr ENotEnoughSigners
                       | Some a => match c_tw c with Tweaks _ => RErr EInternalKey | _ => RKey (a_pre a) end
                       end)
    | CNumSigners => (w, RNum (length (c_keys c)))
    | CKeys => (w, RKeys (c_keys c))
    | CNew ext rnd => new_session w ext rnd
    | CPublic i => at_ses w i (fun c z => (c, z, match z_local z with Some n => RPub (fst n) | None => RPanic end))
    | CNumNonces i => at_ses w i (fun c z => (c, z, RNum (length (z_pubs z))))
    | CNonce i pn => at_ses w i (fun c z => let '(z', r) := reg_nonce c z pn in (c, z', r))
    | CSign i m sort fast => at_ses w i (fun c z => sign_session c z m sort fast)
    | CCombine i s => at_ses w i (fun c z => combine_session c z s)
    | CFinal i => at_ses w i (fun c z => (c, z, RFinal (z_final z)))
    end.
  Fixpoint run (w : world) (l : list call) : world := match l with [] => w | q :: r => run (fst (step w q)) r end.
  (** what a call answers after a history *)
  Definition answer (w : world) (l : list call) (q : call) : res := snd (step (run w l) q).
End Ctx.
