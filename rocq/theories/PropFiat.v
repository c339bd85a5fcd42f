(** PropFiat.v -- C53: what the challenges of the two range proofs bind.

    A non-interactive proof is only as good as the data hashed into its challenge.  [seed_e] (RangeProofs.v) stretches a
    salted 32-byte digest to a challenge; B is any function standing for blake2b-256. *)
From Verif Require Import Base BigInt Text Wire Messages Save Curve NumTh RangeProofs RangeThm PropRange ToyCurve EdwardsP Ed25519 PropEd25519.

(** sizes that a real transcript never exceeds: numbers below 256^(2^40) *)
Definition sized (z : Z) : Prop := 0 <= z /\ tiny (to_be z).
Definition ped_sized (pd : ped) : Prop := sized (pe_n pd) /\ sized (pe_s pd) /\ sized (pe_t pd).

Lemma sized_inj a b : sized a -> sized b -> to_be a = to_be b -> a = b.
Proof. intros [A _] [B _]. apply to_be_inj; assumption. Qed.
Lemma lae_tiny q : 0 < q < 2 ^ 256 -> tiny (to_be (cf_lae q)).
Proof.
  intro Hq. unfold tiny. assert (length (to_be (cf_lae q)) <= 2)%nat; [|assert (2 <= 2 ^ 40) by (vm_compute; discriminate); lia].
  apply to_be_length. change (256 ^ Z.of_nat 2) with 65536. unfold cf_lae, bitlen.
  destruct (Z.eqb_spec q 0); [lia|]. assert (0 <= Z.log2 (Z.abs q) < 256) by (split; [apply Z.log2_nonneg|apply Z.log2_lt_pow2; lia]). lia.
Qed.

(** *** the proof of an encrypted nonce: the challenge of an accepted proof is a digest that determines the salt, the session
    context, the ciphertext, the signer's modulus, the verifier's Pedersen parameters and all three commitments *)
Theorem C53_enc_challenge_binds C : 0 < c_n C < 2 ^ 256 ->
  exists pre : bytes -> bytes -> Z -> Z -> ped -> Z -> Z -> Z -> bytes,
  (forall B ctx K N pd m, enc_verify C B ctx K N pd m = Ret true ->
     exists e z1 Ke, e = seed_e B (em_salt m) (B (pre (em_salt m) ctx K N pd (of_be (em_S m)) (of_be (em_A m)) (of_be (em_C m)))) (c_n C) /\
       parse_int 10 (em_z1 m) = Some z1 /\ expm K e (N * N) = Some Ke /\
       cong (N * N) ((1 + z1 * N) * of_be (em_z2 m) ^ N) (of_be (em_A m) * Ke)) /\
  (forall salt salt' ctx ctx' K K' N N' pd pd' S S' A A' Cc Cc',
     tiny salt -> tiny salt' -> tiny ctx -> tiny ctx' -> ped_sized pd -> ped_sized pd' ->
     (forall z, In z [K; K'; N; N'; S; S'; A; A'; Cc; Cc'] -> sized z) ->
     pre salt ctx K N pd S A Cc = pre salt' ctx' K' N' pd' S' A' Cc' ->
     salt = salt' /\ ctx = ctx' /\ K = K' /\ N = N' /\ pd = pd' /\ S = S' /\ A = A' /\ Cc = Cc').
Proof.
  intro Hq. exists (fun salt ctx K N pd S A Cc => hash_input salt (enc_parts C ctx K N pd S A Cc)). split.
  - intros B ctx K N pd m V. destruct (enc_sound C B ctx K N pd m V) as (e & z1 & z3 & A). destruct A as [A1 _ _ Ae _ _ _ (Ke & A2 & A3) _].
    exists e, z1, Ke. repeat split; assumption.
  - intros salt salt' ctx ctx' K K' N N' pd pd' S S' A A' Cc Cc' T T' Tc Tc' (P1 & P2 & P3) (P1' & P2' & P3') Z E.
    assert (ZZ : forall z, In z [K; K'; N; N'; S; S'; A; A'; Cc; Cc'] -> tiny (to_be z)) by (intros z I; apply Z, I).
    pose proof (lae_tiny _ Hq) as TL.
    apply C27_transcript_binding in E; try assumption;
      [|unfold enc_parts; repeat first [apply Forall_nil|apply Forall_cons]; try assumption; try (apply ZZ; cbn; tauto); first [apply P1|apply P2|apply P3]
       |unfold enc_parts; repeat first [apply Forall_nil|apply Forall_cons]; try assumption; try (apply ZZ; cbn; tauto); first [apply P1'|apply P2'|apply P3']].
    destruct E as [-> E]. unfold enc_parts in E. injection E as E1 E2 E3 E4 E5 E6 E7 E8 E9.
    assert (G : forall a b, In a [K; K'; N; N'; S; S'; A; A'; Cc; Cc'] -> In b [K; K'; N; N'; S; S'; A; A'; Cc; Cc'] -> to_be a = to_be b -> a = b)
      by (intros a b Ia Ib; apply sized_inj; apply Z; assumption).
    destruct pd as [n1 s1 t1], pd' as [n2 s2 t2]. cbn [pe_n pe_s pe_t] in *. apply sized_inj in E4; [|assumption..]. apply sized_inj in E5; [|assumption..]. apply sized_inj in E6; [|assumption..].
    apply G in E2; [|cbn; tauto..]. apply G in E3; [|cbn; tauto..]. apply G in E7; [|cbn; tauto..]. apply G in E8; [|cbn; tauto..]. apply G in E9; [|cbn; tauto..].
    subst. repeat split; reflexivity.
Qed.

(** *** the proof of a nonce point: only the second coordinates of the nonce point and of its mask, and only the modulus of
    the Pedersen parameters, go into the challenge *)
Theorem C53_log_challenge_binds_partial C : curve_laws C -> 0 < c_n C < 2 ^ 256 ->
  exists pre : bytes -> bytes -> Z -> Z -> Z -> Z -> Z -> Z -> Z -> Z -> bytes,
  (forall B ctx K N pd X m, log_verify C B ctx K N pd X m = Ret true ->
     exists e z1 Ke, e = seed_e B (lm_salt m) (B (pre (lm_salt m) ctx K N (pe_n pd) (of_be (lm_S m)) (of_be (lm_A m)) (of_be (lm_D m)) (py X) (of_be (lm_Yy m)))) (c_n C) /\
       parse_int 10 (lm_z1 m) = Some z1 /\ expm K e (N * N) = Some Ke /\
       cong (N * N) ((1 + z1 * N) * of_be (lm_z2 m) ^ N) (of_be (lm_A m) * Ke)) /\
  (forall salt salt' ctx ctx' K K' N N' n n' S S' A A' D D' x x' y y',
     tiny salt -> tiny salt' -> tiny ctx -> tiny ctx' -> sized (py (c_g C)) ->
     (forall z, In z [K; K'; N; N'; n; n'; S; S'; A; A'; D; D'; x; x'; y; y'] -> sized z) ->
     pre salt ctx K N n S A D x y = pre salt' ctx' K' N' n' S' A' D' x' y' ->
     salt = salt' /\ ctx = ctx' /\ K = K' /\ N = N' /\ n = n' /\ S = S' /\ A = A' /\ D = D' /\ x = x' /\ y = y').
Proof.
  intros L Hq. exists (fun salt ctx K N n S A D x y => hash_input salt (log_parts C ctx K N {| pe_n := n; pe_s := 0; pe_t := 0 |} S A D (0, x) (0, y))). split.
  - intros B ctx K N pd X m V. destruct (log_sound C B L ctx K N pd X m V) as (e & z1 & z3 & Y & A). destruct A as [A1 _ _ Ae _ [EY _] _ _ _ (Ke & A2 & A3) _].
    exists e, z1, Ke. subst Y. repeat split; assumption.
  - intros salt salt' ctx ctx' K K' N N' n n' S S' A A' D D' x x' y y' T T' Tc Tc' TG Z E.
    set (l := [K; K'; N; N'; n; n'; S; S'; A; A'; D; D'; x; x'; y; y']) in *.
    assert (ZZ : forall z, In z l -> tiny (to_be z)) by (intros z I; apply Z, I).
    pose proof (lae_tiny _ Hq) as TL. destruct TG as [_ TG].
    apply C27_transcript_binding in E; try assumption;
      [|unfold log_parts; cbn [pe_n py snd]; repeat first [apply Forall_nil|apply Forall_cons]; try assumption; apply ZZ; cbn; tauto
       |unfold log_parts; cbn [pe_n py snd]; repeat first [apply Forall_nil|apply Forall_cons]; try assumption; apply ZZ; cbn; tauto].
    destruct E as [-> E]. unfold log_parts in E. cbn [pe_n py snd] in E. injection E as E1 E2 E3 E4 E5 E6 E7 E8 E9.
    assert (G : forall a b, In a l -> In b l -> to_be a = to_be b -> a = b) by (intros a b Ia Ib; apply sized_inj; apply Z; assumption).
    apply G in E2; [|cbn; tauto..]. apply G in E3; [|cbn; tauto..]. apply G in E4; [|cbn; tauto..]. apply G in E5; [|cbn; tauto..]. apply G in E6; [|cbn; tauto..].
    apply G in E7; [|cbn; tauto..]. apply G in E8; [|cbn; tauto..]. apply G in E9; [|cbn; tauto..].
    subst. repeat split; reflexivity.
Qed.

(** *** so the prover's message does not depend on the first coordinate of the nonce point: on Ed25519 the proof for a nonce
    point X is, byte for byte, the one for -X.  (The verifier still tells them apart by the curve equation, C28.) *)
Lemma log_new_y C B ctx k rho K N pd X X' d : py X = py X' -> log_new C B ctx k rho K N pd X d = log_new C B ctx k rho K N pd X' d.
Proof. intro E. unfold log_new, log_parts. rewrite E. reflexivity. Qed.
Theorem C53_log_point_sign_refuted : exists X X', on_ed25519 X /\ on_ed25519 X' /\ X <> X' /\
  forall B ctx k rho K N pd d, log_new ed25519 B ctx k rho K N pd X d = log_new ed25519 B ctx k rho K N pd X' d.
Proof.
  exists (gx25519, gy25519), (p25519 - gx25519, gy25519). split; [|split; [|split]].
  - unfold on_ed25519. repeat split; vm_compute; congruence.
  - unfold on_ed25519. repeat split; vm_compute; congruence.
  - intro E. apply (f_equal fst) in E. revert E. vm_compute. congruence.
  - intros. apply log_new_y. reflexivity.
Qed.

(** the hypotheses are met by the concrete run of C27/C28, on the toy curve *)
Theorem C53_example : curve_laws toy /\ 0 < c_n toy < 2 ^ 256 /\ ped_sized ex_ped /\ sized ex_K /\ sized 143 /\ tiny (str "ctx") /\ sized (py (c_g toy)).
Proof. split; [exact toy_laws|]. assert (40 < 2 ^ 40) by reflexivity. unfold ped_sized, sized, tiny. repeat split; try (vm_compute; congruence). Qed.
