(** Curve.v -- crypto/ecpoint.go over an abstract elliptic curve.

    The curve arithmetic itself (decred/edwards TwistedEdwardsCurve, an external dependency) is a record
    of functions on raw integer coordinates; [curve_laws] is what theorems assume about it.  A curve
    satisfying the laws is constructed in Ed25519.v (the real curve) and, as a small instance, in
    ToyCurve.v. *)
From Verif Require Import Base BigInt.
From Coq Require Import Znumtheory.

Definition point : Type := (Z * Z)%type.
Definition px (p : point) : Z := fst p.
Definition py (p : point) : Z := snd p.

(** elliptic.Curve as used by crypto/ecpoint.go *)
Record curve := {
  c_on : Z -> Z -> bool;              (* IsOnCurve *)
  c_add : point -> point -> point;    (* Add *)
  c_smul : point -> Z -> point;       (* ScalarMult with the scalar given as non-negative integer *)
  c_bmul : Z -> point;                (* ScalarBaseMult *)
  c_g : point;                        (* Params().Gx, Gy *)
  c_n : Z;                            (* Params().N *)
  c_id : point;                       (* neutral element (not part of the Go interface) *)
  c_canon : point -> Prop             (* coordinates reduced (not part of the Go interface) *)
}.

Section ECPoint.
  Variable C : curve.

  Definition on (p : point) : bool := c_on C (px p) (py p).

  (** crypto/ecpoint.go 35-40 NewECPoint: [None] is the error *)
  Definition new_point (x y : Z) : option point := if c_on C x y then Some (x, y) else None.

  (** crypto/ecpoint.go 56-59 Add *)
  Definition pt_add (p q : point) : option point :=
    let r := c_add C p q in new_point (px r) (py r).

  (** crypto/ecpoint.go 61-66 ScalarMult: scalar reduced mod N; [None] is the nil pointer that
      results when the computed coordinates are not on the curve *)
  Definition pt_smul (p : point) (k : Z) : option point :=
    let r := c_smul C p (k mod c_n C) in new_point (px r) (py r).

  (** crypto/ecpoint.go 108-113 ScalarBaseMult *)
  Definition base_mul (k : Z) : option point :=
    let r := c_bmul C (k mod c_n C) in new_point (px r) (py r).

  (** crypto/ecpoint.go 84-89 Equals (both non-nil) *)
  Definition pt_eqb (p q : point) : bool := (px p =? px q) && (py p =? py q).

  (** crypto/ecpoint.go 103-105 EightInvEight, with 29-32 eightInv = 8^-1 mod N; a nil intermediate
      pointer panics *)
  Definition eight_inv_eight (inv8 : Z) (p : point) : outcome point :=
    match pt_smul p 8 with
    | None => Panic
    | Some q => match pt_smul q inv8 with Some r => Ret r | None => Panic end
    end.

  (** ** Laws assumed of the curve *)
  Record curve_laws : Prop := {
    cl_prime : prime (c_n C);
    cl_n_range : 8 < c_n C < 2 ^ 253;
    cl_canon_on : forall p, c_canon C p -> on p = true;
    cl_id_canon : c_canon C (c_id C);
    cl_g_canon : c_canon C (c_g C);
    cl_coord : forall p, c_canon C p -> 0 <= px p < 2 ^ 256 /\ 0 <= py p < 2 ^ 256;
    cl_add_canon : forall p q, on p = true -> on q = true -> c_canon C (c_add C p q);
    cl_comm : forall p q, on p = true -> on q = true -> c_add C p q = c_add C q p;
    cl_assoc : forall p q r, on p = true -> on q = true -> on r = true ->
        c_add C (c_add C p q) r = c_add C p (c_add C q r);
    cl_id_l : forall p, c_canon C p -> c_add C (c_id C) p = p;
    cl_inv : forall p, on p = true -> exists q, c_canon C q /\ c_add C p q = c_id C;
    cl_smul_0 : forall p, on p = true -> c_smul C p 0 = c_id C;
    cl_smul_S : forall p k, on p = true -> 0 <= k -> c_smul C p (k + 1) = c_add C p (c_smul C p k);
    cl_bmul : forall k, 0 <= k -> c_bmul C k = c_smul C (c_g C) k;
    cl_g_order : c_smul C (c_g C) (c_n C) = c_id C;
    cl_g_nontriv : c_g C <> c_id C;
    cl_cofactor : forall p, on p = true -> c_smul C p (8 * c_n C) = c_id C
  }.
End ECPoint.

Lemma pt_eqb_eq p q : pt_eqb p q = true <-> p = q.
Proof.
  unfold pt_eqb, px, py. destruct p as [a b], q as [c d]; simpl. rewrite andb_true_iff, !Z.eqb_eq.
  split; [intros [-> ->]; reflexivity|]. intro H; inversion H; auto.
Qed.
Lemma pt_eqb_refl p : pt_eqb p p = true.
Proof. apply pt_eqb_eq; reflexivity. Qed.

Section Theory.
  Variable C : curve.
  Hypothesis L : curve_laws C.
  Notation "a +p b" := (c_add C a b) (at level 50, left associativity).
  Notation "k *p a" := (c_smul C a k) (at level 40).
  Notation O := (c_id C).
  Notation G := (c_g C).
  Notation n := (c_n C).
  Notation on := (on C).

  Lemma n_gt1 : 1 < n.
  Proof. pose proof (prime_ge_2 _ (cl_prime C L)). lia. Qed.
  Lemma on_id : on O = true. Proof. apply cl_canon_on; auto. apply cl_id_canon; auto. Qed.
  Lemma on_g : on G = true. Proof. apply cl_canon_on; auto. apply cl_g_canon; auto. Qed.
  Lemma on_add p q : on p = true -> on q = true -> on (p +p q) = true.
  Proof. intros. apply cl_canon_on; auto. apply cl_add_canon; auto. Qed.

  Lemma canon_smul p k : on p = true -> 0 <= k -> c_canon C (k *p p).
  Proof.
    intros Hp Hk. destruct (Z.eq_dec k 0) as [->|Hn].
    - rewrite cl_smul_0 by auto. apply cl_id_canon; auto.
    - revert k Hk Hn. apply (natlike_ind (fun k => k <> 0 -> c_canon C (k *p p))); [lia|].
      intros k Hk IH _. unfold Z.succ. rewrite cl_smul_S by auto.
      destruct (Z.eq_dec k 0) as [->|Hk0].
      + rewrite cl_smul_0 by auto. apply cl_add_canon; auto. apply on_id.
      + apply cl_add_canon; auto. apply cl_canon_on; auto.
  Qed.
  Lemma on_smul p k : on p = true -> 0 <= k -> on (k *p p) = true.
  Proof. intros. apply cl_canon_on; auto. apply canon_smul; auto. Qed.

  Lemma smul_add p a b : on p = true -> 0 <= a -> 0 <= b -> (a + b) *p p = (a *p p) +p (b *p p).
  Proof.
    intros Hp Ha Hb. revert a Ha. apply (natlike_ind (fun a => (a + b) *p p = (a *p p) +p (b *p p))).
    - rewrite cl_smul_0, cl_id_l by auto using canon_smul. reflexivity.
    - intros a Ha IH. replace (Z.succ a + b) with ((a + b) + 1) by lia. unfold Z.succ.
      rewrite !cl_smul_S by (auto; lia). rewrite IH, cl_assoc; auto using on_smul.
  Qed.

  Lemma smul_id k : 0 <= k -> k *p O = O.
  Proof.
    revert k. apply natlike_ind.
    - apply cl_smul_0; auto using on_id.
    - intros k Hk IH. unfold Z.succ. rewrite cl_smul_S, IH, cl_id_l; auto using on_id, cl_id_canon.
  Qed.

  Lemma smul_mul p a b : on p = true -> 0 <= a -> 0 <= b -> (a * b) *p p = a *p (b *p p).
  Proof.
    intros Hp Ha Hb. revert a Ha. apply (natlike_ind (fun a => (a * b) *p p = a *p (b *p p))).
    - rewrite Z.mul_0_l, !cl_smul_0 by auto using on_smul. reflexivity.
    - intros a Ha IH. replace (Z.succ a * b) with (b + a * b) by lia. unfold Z.succ.
      rewrite smul_add, cl_smul_S, IH; auto using on_smul; nia.
  Qed.

  Lemma smul_mod_g k : 0 <= k -> (k mod n) *p G = k *p G.
  Proof.
    intro Hk. pose proof n_gt1 as Hn.
    assert (0 <= k mod n < n) by (apply Z.mod_pos_bound; lia).
    assert (0 <= k / n) by (apply Z.div_pos; lia).
    rewrite (Z.div_mod k n) at 2 by lia. rewrite smul_add by (auto using on_g; nia).
    replace (n * (k / n)) with ((k / n) * n) by lia.
    rewrite smul_mul by (auto using on_g; lia). rewrite cl_g_order, smul_id by auto.
    rewrite cl_id_l; auto. apply canon_smul; auto using on_g; lia.
  Qed.

  (** integer multiples of the base point (any integer k, Go reduces mod N first) *)
  Definition gmul (k : Z) : point := (k mod n) *p G.

  Lemma gmul_canon k : c_canon C (gmul k).
  Proof. apply canon_smul; auto using on_g. pose proof n_gt1. apply Z.mod_pos_bound; lia. Qed.
  Lemma gmul_on k : on (gmul k) = true.
  Proof. apply cl_canon_on; auto using gmul_canon. Qed.
  Lemma gmul_smul k : 0 <= k -> gmul k = k *p G.
  Proof. apply smul_mod_g. Qed.
  Lemma gmul_mod k : gmul (k mod n) = gmul k.
  Proof. unfold gmul. pose proof n_gt1. rewrite Z.mod_mod by lia. reflexivity. Qed.
  Lemma gmul_eqm a b : a mod n = b mod n -> gmul a = gmul b.
  Proof. unfold gmul. intros ->. reflexivity. Qed.
  Lemma gmul_add a b : gmul a +p gmul b = gmul (a + b).
  Proof.
    pose proof n_gt1. assert (0 <= a mod n < n) by (apply Z.mod_pos_bound; lia).
    assert (0 <= b mod n < n) by (apply Z.mod_pos_bound; lia).
    rewrite <- (gmul_mod (a + b)), Z.add_mod by lia. rewrite gmul_mod.
    rewrite (gmul_smul (a mod n + b mod n)) by lia.
    rewrite smul_add by (auto using on_g; lia). reflexivity.
  Qed.
  Lemma gmul_mul a b : 0 <= a -> a *p gmul b = gmul (a * b).
  Proof.
    intro Ha. pose proof n_gt1. assert (0 <= b mod n < n) by (apply Z.mod_pos_bound; lia).
    unfold gmul at 1. rewrite <- smul_mul by (auto using on_g; lia).
    rewrite <- gmul_smul by nia. apply gmul_eqm. rewrite Z.mul_mod_idemp_r by lia. reflexivity.
  Qed.
  Lemma gmul_0 : gmul 0 = O.
  Proof. unfold gmul. rewrite Z.mod_0_l by (pose proof n_gt1; lia). apply cl_smul_0; auto using on_g. Qed.

  Lemma add_cancel_l p q r : on p = true -> c_canon C q -> c_canon C r -> p +p q = p +p r -> q = r.
  Proof.
    intros Hp Hq Hr H. destruct (cl_inv C L p Hp) as (i & Hi & E).
    assert (Oi : on i = true) by (apply cl_canon_on; auto).
    assert (Oq : on q = true) by (apply cl_canon_on; auto).
    assert (Or : on r = true) by (apply cl_canon_on; auto).
    assert (E' : i +p p = O) by (rewrite cl_comm; auto).
    rewrite <- (cl_id_l C L q Hq), <- (cl_id_l C L r Hr), <- E', !cl_assoc, H; auto.
  Qed.

  (** the base point has order exactly n *)
  Lemma gmul_inj a b : gmul a = gmul b -> a mod n = b mod n.
  Proof.
    intro H. pose proof n_gt1 as Hn. pose proof (cl_prime C L) as Pn.
    assert (D : gmul (a - b) = O).
    { apply (add_cancel_l (gmul b)); auto using gmul_on, gmul_canon, cl_id_canon.
      rewrite gmul_add. replace (b + (a - b)) with a by lia. rewrite H.
      rewrite cl_comm, cl_id_l; auto using gmul_on, on_id, gmul_canon. }
    destruct (Z.eq_dec ((a - b) mod n) 0) as [Hz|Hz].
    - apply Z.mod_divide in Hz; [|lia]. destruct Hz as [q Hq].
      replace a with (b + q * n) by lia. apply Z_mod_plus_full.
    - exfalso.
      assert (rel : rel_prime (a - b) n).
      { apply rel_prime_sym. apply prime_rel_prime; auto. intro Dv. apply Hz. apply Z.mod_divide; [lia|exact Dv]. }
      apply rel_prime_bezout in rel. destruct rel as [u v Huv].
      assert (E : gmul 1 = O).
      { rewrite <- Huv. rewrite <- gmul_add.
        assert (gmul (v * n) = O) as ->.
        { rewrite (gmul_eqm _ 0); [apply gmul_0|]. rewrite Z.mod_mul, Z.mod_0_l by lia. reflexivity. }
        assert (gmul (u * (a - b)) = O) as ->.
        { rewrite (gmul_eqm _ ((u mod n) * (a - b))) by (rewrite Z.mul_mod_idemp_l by lia; reflexivity).
          rewrite <- gmul_mul by (apply Z.mod_pos_bound; lia). rewrite D. apply smul_id. apply Z.mod_pos_bound; lia. }
        apply cl_id_l; auto using cl_id_canon. }
      apply (cl_g_nontriv C L). rewrite <- E. rewrite gmul_smul by lia.
      replace 1 with (0 + 1) by lia. rewrite cl_smul_S, cl_smul_0, cl_comm, cl_id_l; auto using on_g, on_id, cl_g_canon. lia.
  Qed.

  Lemma base_mul_eq k : base_mul C k = Some (gmul k).
  Proof.
    pose proof n_gt1. assert (0 <= k mod n < n) by (apply Z.mod_pos_bound; lia).
    unfold base_mul, new_point. rewrite cl_bmul by (auto; lia). fold (gmul k).
    pose proof (gmul_on k) as Ho. unfold Curve.on in Ho. rewrite Ho. destruct (gmul k); reflexivity.
  Qed.
  Lemma pt_smul_eq p k : on p = true -> pt_smul C p k = Some ((k mod n) *p p).
  Proof.
    intro Hp. pose proof n_gt1. assert (0 <= k mod n < n) by (apply Z.mod_pos_bound; lia).
    unfold pt_smul, new_point.
    pose proof (on_smul p (k mod n) Hp ltac:(lia)) as Ho. unfold Curve.on in Ho. rewrite Ho.
    destruct ((k mod n) *p p); reflexivity.
  Qed.
  Lemma pt_smul_gmul k x : pt_smul C (gmul x) k = Some (gmul (k * x)).
  Proof.
    rewrite pt_smul_eq by apply gmul_on. f_equal.
    pose proof n_gt1. rewrite gmul_mul by (apply Z.mod_pos_bound; lia).
    apply gmul_eqm. rewrite Z.mul_mod_idemp_l by lia. reflexivity.
  Qed.
  Lemma pt_add_eq p q : on p = true -> on q = true -> pt_add C p q = Some (p +p q).
  Proof.
    intros Hp Hq. unfold pt_add, new_point. pose proof (on_add p q Hp Hq) as Ho. unfold Curve.on in Ho.
    rewrite Ho. destruct (p +p q); reflexivity.
  Qed.
  Lemma pt_add_gmul a b : pt_add C (gmul a) (gmul b) = Some (gmul (a + b)).
  Proof. rewrite pt_add_eq by apply gmul_on. f_equal. apply gmul_add. Qed.

  Lemma eight_inv_eight_gmul inv8 x : (8 * inv8) mod n = 1 -> eight_inv_eight C inv8 (gmul x) = Ret (gmul x).
  Proof.
    intro H. pose proof n_gt1. unfold eight_inv_eight. rewrite !pt_smul_gmul. f_equal. apply gmul_eqm.
    replace (inv8 * (8 * x)) with ((8 * inv8) * x) by lia.
    rewrite <- Z.mul_mod_idemp_l by lia. rewrite H, Z.mul_1_l. reflexivity.
  Qed.

  (** EightInvEight maps every curve point into the prime-order subgroup: n * result = 0 *)
  Lemma eight_inv_eight_subgroup inv8 p r : on p = true ->
    eight_inv_eight C inv8 p = Ret r -> c_canon C r /\ n *p r = O.
  Proof.
    intros Hp H. pose proof n_gt1. unfold eight_inv_eight in H. rewrite pt_smul_eq in H by auto.
    assert (0 <= 8 mod n < n) by (apply Z.mod_pos_bound; lia).
    assert (0 <= inv8 mod n < n) by (apply Z.mod_pos_bound; lia).
    rewrite pt_smul_eq in H by (apply on_smul; auto; lia). inversion H; subst r. clear H.
    split; [apply canon_smul; auto; [apply on_smul; auto; lia|lia]|].
    rewrite <- !smul_mul by (repeat (apply on_smul || auto); nia).
    pose proof (cl_n_range C L) as [Hbig _].
    rewrite (Z.mod_small 8 n) by lia.
    replace (n * (inv8 mod n) * 8) with ((inv8 mod n) * (8 * n)) by lia.
    rewrite smul_mul by (auto; nia). rewrite cl_cofactor by auto. apply smul_id; lia.
  Qed.
End Theory.
