(** Ckd.v -- crypto/ckd/child_key_derivation_eddsa.go and the helpers it uses from child_key_derivation.go.

    HMAC-SHA512 is the function argument [HM key data]; it returns 64 bytes ([hmac_len]).
    The fields ChildIndex, ParentFP and Version of ExtendedKeyD are written but never read by derivation; they
    are not carried here (Bip32.v models them).  The serialized public key that DerivePrivateKeyForPathD also
    returns is ignored by its only caller and is not modelled. *)
From Verif Require Import Base BigInt Text Curve.
From Coq Require Import Znumtheory.

(** child_key_derivation.go 149-151 isOdd, 158-167 paddedBytes, 169-178 serializeCompressed *)
Definition ser_comp (p : point) : bytes :=
  let xb := to_be (px p) in
  zb (if Z.odd (py p) then 3 else 2) :: repeat (zb 0) (32 - length xb) ++ xb.
(** child_key_derivation.go 378-382 uint32ToBytes *)
Definition u32be (i : Z) : bytes := be_fixed 4 i.
(** strconv.Atoi on a 64-bit platform: optional sign, decimal digits, int64 range *)
Definition atoi (s : bytes) : option Z :=
  match parse_int 10 s with
  | Some z => if (- 2 ^ 63 <=? z) && (z <? 2 ^ 63) then Some z else None
  | None => None
  end.

(** child_key_derivation_eddsa.go 52-61 ExtendedKeyD *)
Record xkey := { x_priv : bytes; x_pub : point; x_ded : point; x_depth : Z; x_cc : bytes }.

Section Ckd.
  Variable C : curve.
  Variable HM : bytes -> bytes -> bytes.

  (** child_key_derivation_eddsa.go 142-171 = 243-268: the offset il for one step, or an error *)
  Definition step_il (cc data : bytes) : option (Z * bytes) :=
    let ilr := HM cc data in
    let il := of_be (firstn 32 ilr) mod c_n C in
    if il =? 0 then None else Some (il, skipn 32 ilr).

  (** 172-187: deltaG = il*G (nil would panic on X()), the two sums *)
  Definition step_points (il : Z) (pub ded : point) : outcome (option (point * point)) :=
    let! dg := deref (base_mul C il) in
    if (px dg =? 0) || (py dg =? 0) then Ret None else
    match pt_add C pub dg with
    | None => Ret None
    | Some p' => match pt_add C ded dg with
                 | None => Ret None
                 | Some d' => Ret (Some (p', d'))
                 end
    end.

  (** 128-203 DeriveChildKeyD; [None] is an error return *)
  Definition derive_priv1 (index : Z) (harden : bool) (pk : xkey) : outcome (option xkey) :=
    if 2 ^ 31 <=? index then Ret None
    else if x_depth pk =? 255 then Ret None
    else
      let data := if harden then zb 0 :: x_priv pk ++ u32be (index + 2 ^ 31) else ser_comp (x_ded pk) ++ u32be index in
      match step_il (x_cc pk) data with
      | None => Ret None
      | Some (il, cc') =>
        let! o := step_points il (x_pub pk) (x_ded pk) in
        match o with
        | None => Ret None
        | Some (p', d') =>
            Ret (Some {| x_priv := to_be ((il + of_be (x_priv pk)) mod c_n C); x_pub := p'; x_ded := d';
                         x_depth := x_depth pk + 1; x_cc := cc' |})
        end
      end.
  (** 241-290 DeriveChildPubKeyD *)
  Definition derive_pub1 (index : Z) (pk : xkey) : outcome (option xkey) :=
    if 2 ^ 31 <=? index then Ret None
    else if x_depth pk =? 255 then Ret None
    else
      match step_il (x_cc pk) (ser_comp (x_ded pk) ++ u32be index) with
      | None => Ret None
      | Some (il, cc') =>
        let! o := step_points il (x_pub pk) (x_ded pk) in
        match o with
        | None => Ret None
        | Some (p', d') => Ret (Some {| x_priv := []; x_pub := p'; x_ded := d'; x_depth := x_depth pk + 1; x_cc := cc' |})
        end
      end.

  Definition quote : byte := zb 39.
  (** part[len(part)-1:] == "'" ; an empty part panics (slice bounds) *)
  Definition hardened (part : bytes) : outcome bool :=
    match rev part with [] => Panic | c :: _ => Ret (byte_eqb c quote) end.

  (** 89-113 the loop of DerivePrivateKeyForPathD *)
  Fixpoint priv_loop (parts : list bytes) (pk : xkey) : outcome (option xkey) :=
    match parts with
    | [] => Ret (Some pk)
    | part :: rest =>
      let! h := hardened part in
      let body := if h : bool then removelast part else part in
      match atoi body with
      | None => Ret None
      | Some idx =>
        if idx <? 0 then Ret None else
        let! o := derive_priv1 (idx mod 2 ^ 32) h pk in
        match o with None => Ret None | Some pk' => priv_loop rest pk' end
      end
    end.
  (** 208-231 the loop of DerivePublicKeyForPathD *)
  Fixpoint pub_loop (parts : list bytes) (pk : xkey) : outcome (option xkey) :=
    match parts with
    | [] => Ret (Some pk)
    | part :: rest =>
      let! h := hardened part in
      if h : bool then Ret None else
      match atoi part with
      | None => Ret None
      | Some idx =>
        if idx <? 0 then Ret None else
        let! o := derive_pub1 (idx mod 2 ^ 32) pk in
        match o with None => Ret None | Some pk' => pub_loop rest pk' end
      end
    end.

  Definition slash : byte := zb 47.
  (** 20-37 DeriveEddsaChildPrivKey with 87-125 DerivePrivateKeyForPathD.  FillBytes panics above 32 bytes;
      the padding loop and the length test at 114-122 *)
  Definition derive_priv (priv : Z) (pub ded : point) (cc path : bytes) : outcome (option bytes) :=
    if 2 ^ 256 <=? Z.abs priv then Panic else
    let! o := priv_loop (split slash path) {| x_priv := be_fixed 32 (Z.abs priv); x_pub := pub; x_ded := ded; x_depth := 0; x_cc := cc |} in
    match o with
    | None => Ret None
    | Some pk => if (32 <? length (x_priv pk))%nat then Ret None
                 else Ret (Some (repeat (zb 0) (32 - length (x_priv pk)) ++ x_priv pk))
    end.
  (** 39-50 DeriveEddsaChildPubKey with 206-237 DerivePublicKeyForPathD: the error branch calls err.Error() on a nil
      error, so every error is a panic *)
  Definition derive_pub (pub ded : point) (cc path : bytes) : outcome point :=
    let! o := pub_loop (split slash path) {| x_priv := []; x_pub := pub; x_ded := ded; x_depth := 0; x_cc := cc |} in
    match o with
    | None => Panic
    | Some pk => match new_point C (px (x_pub pk)) (py (x_pub pk)) with Some p => Ret p | None => Panic end
    end.
End Ckd.

(** ** Theory *)
Section CkdThm.
  Variable C : curve.
  Hypothesis L : curve_laws C.
  Variable HM : bytes -> bytes -> bytes.
  Notation n := (c_n C).
  Notation gmul := (gmul C).

  (** what one walk along a path adds to every key it is applied to; depends only on the root point and chain code *)
  Definition stepd (idx : Z) (ded : point) (cc : bytes) : option (Z * (point * bytes)) :=
    match step_il C HM cc (ser_comp ded ++ u32be idx) with
    | None => None
    | Some (il, cc') =>
        if (px (gmul il) =? 0) || (py (gmul il) =? 0) then None
        else Some (il, (c_add C ded (gmul il), cc'))
    end.

  Lemma step_points_eq il pub ded : on C pub = true -> on C ded = true ->
    step_points C il pub ded =
      Ret (if (px (gmul il) =? 0) || (py (gmul il) =? 0) then None else Some (c_add C pub (gmul il), c_add C ded (gmul il))).
  Proof.
    intros Hp Hd. unfold step_points. rewrite (base_mul_eq C L). cbn [deref obind].
    destruct (_ || _); [reflexivity|]. rewrite !(pt_add_eq C L) by (auto; apply gmul_on; auto). reflexivity.
  Qed.

  (** the sum of the offsets along a path without hardened components *)
  Fixpoint walk (parts : list bytes) (ded : point) (depth : Z) (cc : bytes) : outcome (option Z) :=
    match parts with
    | [] => Ret (Some 0)
    | part :: rest =>
      let! h := hardened part in
      if h : bool then Ret None else
      match atoi part with
      | None => Ret None
      | Some idx =>
        if idx <? 0 then Ret None
        else if 2 ^ 31 <=? idx mod 2 ^ 32 then Ret None
        else if depth =? 255 then Ret None
        else match stepd (idx mod 2 ^ 32) ded cc with
             | None => Ret None
             | Some (il, (ded', cc')) =>
                 let! o := walk rest ded' (depth + 1) cc' in
                 Ret (match o with Some d => Some (il + d) | None => None end)
             end
      end
    end.

  Lemma pub_loop_walk parts : forall pk, c_canon C (x_pub pk) -> on C (x_ded pk) = true ->
    match walk parts (x_ded pk) (x_depth pk) (x_cc pk) with
    | Panic => pub_loop C HM parts pk = Panic
    | Ret None => pub_loop C HM parts pk = Ret None
    | Ret (Some d) => exists pk', pub_loop C HM parts pk = Ret (Some pk') /\ x_pub pk' = c_add C (x_pub pk) (gmul d) /\ c_canon C (x_pub pk')
    end.
  Proof.
    induction parts as [|part rest IH]; intros pk Hp Hd; cbn [walk pub_loop].
    - exists pk. split; [reflexivity|]. rewrite (gmul_0 C L). split; [|exact Hp].
      rewrite (cl_comm C L) by (apply (cl_canon_on C L); auto; apply (cl_id_canon C L)). symmetry. apply (cl_id_l C L). exact Hp.
    - destruct (hardened part) as [[|]|]; cbn [obind]; try reflexivity.
      destruct (atoi part) as [idx|]; [|reflexivity]. destruct (idx <? 0); [reflexivity|].
      unfold derive_pub1. destruct (2 ^ 31 <=? idx mod 2 ^ 32); [reflexivity|]. destruct (x_depth pk =? 255); [reflexivity|].
      unfold stepd. destruct (step_il C HM (x_cc pk) (ser_comp (x_ded pk) ++ u32be (idx mod 2 ^ 32))) as [[il cc']|]; [|reflexivity].
      rewrite step_points_eq by (auto; apply (cl_canon_on C L); exact Hp). cbn [obind].
      destruct ((px (gmul il) =? 0) || (py (gmul il) =? 0)); [reflexivity|]. cbn [obind].
      match goal with |- context [pub_loop C HM rest ?k] => specialize (IH k) end. cbn [x_pub x_ded x_depth x_cc] in IH.
      assert (OP := cl_canon_on C L _ Hp). assert (OG := gmul_on C L il).
      specialize (IH (cl_add_canon C L _ _ OP OG) (cl_canon_on C L _ (cl_add_canon C L _ _ Hd OG))).
      destruct (walk rest _ _ _) as [[d|]|]; cbn [obind]; try exact IH.
      destruct IH as (pk' & E1 & E2 & E3). exists pk'. split; [exact E1|]. split; [|exact E3].
      rewrite E2. rewrite (cl_assoc C L) by (auto; apply gmul_on; auto). rewrite (gmul_add C L). reflexivity.
  Qed.

  Lemma priv_loop_walk parts : Forall (fun p => hardened p <> Ret true) parts ->
    forall pk, on C (x_pub pk) = true -> on C (x_ded pk) = true ->
    match walk parts (x_ded pk) (x_depth pk) (x_cc pk) with
    | Panic => priv_loop C HM parts pk = Panic
    | Ret None => priv_loop C HM parts pk = Ret None
    | Ret (Some d) => exists pk', priv_loop C HM parts pk = Ret (Some pk') /\
        (parts = [] /\ pk' = pk /\ d = 0 \/ x_priv pk' = to_be ((of_be (x_priv pk) + d) mod n))
    end.
  Proof.
    pose proof (n_gt1 C L) as Hn.
    induction 1 as [|part rest Hh Hr IH]; intros pk Hp Hd; cbn [walk priv_loop].
    - exists pk. split; [reflexivity|]. left. auto.
    - destruct (hardened part) as [[|]|]; cbn [obind]; [congruence| |reflexivity].
      destruct (atoi part) as [idx|]; [|reflexivity]. destruct (idx <? 0); [reflexivity|].
      unfold derive_priv1. destruct (2 ^ 31 <=? idx mod 2 ^ 32); [reflexivity|]. destruct (x_depth pk =? 255); [reflexivity|].
      cbv iota zeta. unfold stepd. destruct (step_il C HM (x_cc pk) (ser_comp (x_ded pk) ++ u32be (idx mod 2 ^ 32))) as [[il cc']|]; [|reflexivity].
      rewrite step_points_eq by auto. cbn [obind].
      destruct ((px (gmul il) =? 0) || (py (gmul il) =? 0)); [reflexivity|]. cbn [obind].
      match goal with |- context [priv_loop C HM rest ?k] => specialize (IH k) end. cbn [x_priv x_pub x_ded x_depth x_cc] in IH.
      assert (OG := gmul_on C L il).
      specialize (IH (cl_canon_on C L _ (cl_add_canon C L _ _ Hp OG)) (cl_canon_on C L _ (cl_add_canon C L _ _ Hd OG))).
      destruct (walk rest _ _ _) as [[d|]|]; cbn [obind]; try exact IH.
      destruct IH as (pk' & E1 & E2). exists pk'. split; [exact E1|]. right.
      assert (R : 0 <= (il + of_be (x_priv pk)) mod n < n) by (apply Z.mod_pos_bound; lia).
      destruct E2 as [(-> & -> & ->)|E2].
      + cbn [x_priv]. f_equal. f_equal. ring.
      + rewrite E2. rewrite of_be_to_be_nonneg by lia. rewrite Zplus_mod_idemp_l. f_equal. f_equal. ring.
  Qed.

  Lemma be_fixed_pad32 z : 0 <= z < 2 ^ 256 -> repeat (zb 0) (32 - length (to_be z)) ++ to_be z = be_fixed 32 z.
  Proof. intro H. symmetry. apply be_fixed_pad. exact H. Qed.

  (** derivation along a path without hardened components adds one offset, which depends only on the root point, the
      chain code and the path, to every private key and (times G) to every public key *)
  Theorem derive_offset ded cc path : on C ded = true -> Forall (fun p => hardened p <> Ret true) (split slash path) ->
    (forall x X, 0 <= x < 2 ^ 256 -> on C X = true -> derive_priv C HM x X ded cc path =
       match walk (split slash path) ded 0 cc with
       | Ret (Some d) => Ret (Some (be_fixed 32 ((x + d) mod n)))
       | Ret None => Ret None | Panic => Panic end) /\
    (forall X, c_canon C X -> derive_pub C HM X ded cc path =
       match walk (split slash path) ded 0 cc with
       | Ret (Some d) => Ret (c_add C X (gmul d))
       | _ => Panic end).
  Proof.
    intros Hd Hh. pose proof (n_gt1 C L) as Hn. pose proof (cl_n_range C L) as [_ Hn2]. split.
    - intros x X Hx HX. unfold derive_priv. rewrite Z.abs_eq by lia.
      destruct (Z.leb_spec (2 ^ 256) x); [lia|].
      match goal with |- context [priv_loop C HM _ ?k] => pose proof (priv_loop_walk _ Hh k) as P end.
      cbn [x_priv x_pub x_ded x_depth x_cc] in P. specialize (P HX Hd).
      destruct (walk (split slash path) ded 0 cc) as [[d|]|]; [|rewrite P; reflexivity|rewrite P; reflexivity].
      destruct P as (pk' & -> & E). cbn [obind]. destruct E as [(E & _)|E]; [exfalso; apply (split_nonempty slash path E)|].
      rewrite of_be_be_fixed in E by (change (256 ^ Z.of_nat 32) with (2 ^ 256); lia).
      assert (R : 0 <= (x + d) mod n < n) by (apply Z.mod_pos_bound; lia).
      assert (n < 2 ^ 256) by (assert (2 ^ 253 < 2 ^ 256) by reflexivity; lia).
      assert (Len : (length (x_priv pk') <= 32)%nat).
      { rewrite E. apply to_be_length. change (256 ^ Z.of_nat 32) with (2 ^ 256). lia. }
      destruct (Nat.ltb_spec 32 (length (x_priv pk'))); [lia|]. rewrite E. rewrite be_fixed_pad32 by lia. reflexivity.
    - intros X HX. unfold derive_pub.
      match goal with |- context [pub_loop C HM _ ?k] => pose proof (pub_loop_walk (split slash path) k) as P end.
      cbn [x_priv x_pub x_ded x_depth x_cc] in P. specialize (P HX Hd).
      destruct (walk (split slash path) ded 0 cc) as [[d|]|]; [|rewrite P; reflexivity|rewrite P; reflexivity].
      destruct P as (pk' & -> & E & Hc). cbn [obind]. unfold new_point.
      pose proof (cl_canon_on C L _ Hc) as O. unfold Curve.on in O. rewrite O. rewrite <- E. destruct (x_pub pk'); reflexivity.
  Qed.
End CkdThm.
