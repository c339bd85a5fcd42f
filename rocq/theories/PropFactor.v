(** PropFactor.v -- property C48: the integer-factorisation proof attached to Paillier keys. *)
From Verif Require Import Base BigInt NumTh Euler Carmichael RangeProofs RangeThm AliceUtils Jacobi PropPrimes Factor.
From Coq Require Import Znumtheory.

Section C48.
  Variable B : bytes -> bytes.
  Lemma gz_inner_fix f N i : gz_inner B f N i (gz_cand B N i) = gz_cand B N i.
  Proof. induction f as [|f IH]; cbn [gz_inner]; [reflexivity|]. destruct (in_range _ _ _); [reflexivity|exact IH]. Qed.
  Lemma gz_inner_eq f N i r : gz_inner B (S f) N i r = gz_cand B N i.
  Proof. cbn [gz_inner]. destruct (in_range _ _ _); [reflexivity|]. apply gz_inner_fix. Qed.
  Lemma gz_outer_none f g N i r : rel_primeb (gz_cand B N i) N = false -> gz_outer B f (S g) N i r = None.
  Proof. intro E. revert r. induction f as [|f IH]; intro r; [reflexivity|]. cbn [gz_outer]. rewrite gz_inner_eq, E. apply IH. Qed.
  Lemma gz_outer_eq f g N i r : gz_outer B (S f) (S g) N i r = if rel_primeb (gz_cand B N i) N then Some (gz_cand B N i) else None.
  Proof.
    destruct (rel_primeb (gz_cand B N i) N) eqn:E; [|now apply gz_outer_none]. cbn [gz_outer]. now rewrite gz_inner_eq, E.
  Qed.
  (** the retries change nothing: the base z is one hash value, accepted exactly when it is coprime to N *)
  Theorem C48_base N : generate_z B N = let h := ext_hash B [zb 1] (to_be N) (bitlen N) in if Z.gcd h N =? 1 then Some h else None.
  Proof. unfold generate_z, fz_retry. change 100%nat with (S 99). rewrite gz_outer_eq. unfold gz_cand. change (to_be 1) with [zb 1]. reflexivity. Qed.
  Lemma generate_z_unit N z : generate_z B N = Some z -> Z.gcd z N = 1.
  Proof. rewrite C48_base. cbv zeta. destruct (Z.eqb_spec (Z.gcd (ext_hash B [zb 1] (to_be N) (bitlen N)) N) 1); [|discriminate]. congruence. Qed.

  (** exactly which messages are accepted *)
  Theorem C48_verify m : let N := of_be (fz_N m) in let x := of_be (fz_x m) in let y := of_be (fz_y m) in
    fz_verify B m = true <-> 1 <= x < N /\ 0 <= y < N - 1 /\ exists z, generate_z B N = Some z /\ Z.gcd z N = 1 /\
      expm z (y - N * (of_be (hash_protos B (fz_salt m) [to_be x; to_be z; to_be N]) mod 2 ^ 80)) N = Some x.
  Proof.
    intros N x y. unfold fz_verify. fold N x y. destruct (in_range x 1 N) eqn:R1; cbn [negb].
    2:{ split; [discriminate|]. intros [H _]. rewrite in_range_true in R1 by exact H. discriminate. }
    apply in_range_inv in R1. destruct (in_range y 0 (N - 1)) eqn:R2; cbn [negb].
    2:{ split; [discriminate|]. intros [_ [H _]]. rewrite in_range_true in R2 by exact H. discriminate. }
    apply in_range_inv in R2. destruct (generate_z B N) as [z|] eqn:G.
    2:{ split; [discriminate|]. intros [_ [_ [z [H _]]]]. discriminate. }
    unfold fz_e. set (k := y - N * _). split.
    - intro E. split; [lia|]. split; [lia|]. exists z. split; [reflexivity|]. split; [now apply generate_z_unit|]. fold k.
      destruct (expm z k N) as [v|]; [|discriminate]. apply Z.eqb_eq in E. now subst.
    - intros [_ [_ [z' [H [_ E]]]]]. assert (z = z') by congruence. subst z'. fold k in E. rewrite E. apply Z.eqb_refl.
  Qed.
  (** honest attempts: for a product of distinct primes the equation always holds; only the size of y can make an attempt fail *)
  Theorem C48_attempt l r z salt : Forall prime l -> NoDup l -> l <> [] -> 0 <= r -> generate_z B (lprod l) = Some z ->
    let N := lprod l in let e := fz_e B salt (z ^ r mod N) z N in
    fz_verify B (fz_msg N (phi_list l) r z e salt) = true <-> r + (N - phi_list l) * e < N - 1.
  Proof.
    intros F ND NE Hr G N e. pose proof (generate_z_unit _ _ G) as Gz. pose proof (euler_list l z F ND Gz) as EU. pose proof (phi_list_lt l F NE) as PL. pose proof (phi_list_pos l F) as PP.
    fold N in G, Gz, EU, PL. set (phi := phi_list l) in *. assert (N1 : 1 < N) by lia. clearbody phi N. clear F ND NE.
    assert (He : 0 <= e) by (unfold e, fz_e; apply Z.mod_pos_bound; reflexivity).
    assert (Hx : 0 <= z ^ r mod N < N) by (apply Z.mod_pos_bound; lia).
    assert (Hx1 : 1 <= z ^ r mod N).
    { destruct (Z.eq_dec (z ^ r mod N) 0) as [E|]; [exfalso|lia]. assert (Gx : Z.gcd (z ^ r mod N) N = 1) by (rewrite (gcd_cong N _ (z ^ r)) by (apply cong_mod; lia); apply gcd_pow_1; [lia|exact Gz]).
      rewrite E, Z.gcd_0_l in Gx. lia. }
    assert (Hy : 0 <= r + (N - phi) * e) by nia.
    unfold fz_verify, fz_msg. cbn [fz_N fz_x fz_y fz_salt]. rewrite (of_be_to_be_nonneg N), (of_be_to_be_nonneg (z ^ r mod N)), (of_be_to_be_nonneg (r + (N - phi) * e)) by first [exact Hy|apply Hx|clear - N1; lia].
    rewrite (in_range_true (z ^ r mod N) 1 N) by (split; [exact Hx1|apply Hx]). cbn [negb]. rewrite G.
    change (fz_e B salt (z ^ r mod N) z N) with e.
    assert (N0 : 0 < N) by (clear - N1; lia).
    assert (X : expm z (r + (N - phi) * e - N * e) N = Some (z ^ r mod N)).
    { destruct (expm_unit z (r + (N - phi) * e - N * e) N ltac:(lia) Gz) as [v Ev]. rewrite Ev. f_equal.
      pose proof (expm_char _ _ _ _ N0 Ev (phi * e) ltac:(clear - He PP; nia) ltac:(clear - Hr; lia)) as C. pose proof (expm_range _ _ _ _ N0 Ev) as Rv.
      replace (r + (N - phi) * e - N * e + phi * e) with r in C by ring. rewrite Z.pow_mul_r in C by lia. rewrite (cong_pow _ _ _ e EU) in C.
      rewrite Z.pow_1_l, Z.mul_1_r in C by lia. apply cong_eq in C; [|lia]. rewrite <- C. symmetry. now apply Z.mod_small. }
    rewrite X, Z.eqb_refl. destruct (in_range (r + (N - phi) * e) 0 (N - 1)) eqn:R; cbn [negb].
    - apply in_range_inv in R. split; [lia|reflexivity].
    - split; [discriminate|]. intro H. rewrite in_range_true in R by lia. discriminate.
  Qed.
  (** a proof that is handed out verifies, carries the modulus it was made for, and the modulus has at least 2048 bits *)
  Theorem C48_new factors N tries m : 0 <= N -> fz_new B factors N tries = Some m -> fz_verify B m = true /\ of_be (fz_N m) = N /\ 2048 <= bitlen N.
  Proof.
    intro HN. unfold fz_new. destruct (Z.ltb_spec (bitlen N) 2048); [discriminate|]. generalize (firstn fz_retry tries). intro l.
    induction l as [|[r salts] l IH]; [discriminate|]. cbn [fz_loop]. destruct (generate_z B N) as [z|]; [|discriminate].
    destruct (reject_loop _ _ _ _) as [[c salt]|]; [|discriminate]. destruct (euler_function factors) as [phi|]; [|discriminate].
    destruct (fz_verify B (fz_msg N phi r z (c mod 2 ^ 80) salt)) eqn:V; [|exact IH]. intro E. assert (m = fz_msg N phi r z (c mod 2 ^ 80) salt) by congruence. subst m.
    split; [exact V|]. split; [|lia]. apply of_be_to_be_nonneg. exact HN.
  Qed.
  (** The prover returns the first attempt whose response fits below N - 1 (of at most 100), and fails only if none does: for a
      modulus of different primes whose base is a unit, a 32-byte hash and at least one salt per attempt. *)
  Theorem C48_new_exact l z tries : Forall prime l -> NoDup l -> l <> [] -> (forall b, length (B b) = 32%nat) -> generate_z B (lprod l) = Some z -> Forall (fun t : Z * list bytes => 0 <= fst t /\ snd t <> []) tries ->
    let N := lprod l in let e := fun t : Z * list bytes => of_be (hash_protos B (hd [] (snd t)) [to_be (z ^ fst t mod N); to_be z; to_be N]) mod 2 ^ 80 in
    fz_new B l N tries = if bitlen N <? 2048 then None else
      match find (fun t => fst t + (N - phi_list l) * e t <? N - 1) (firstn 100 tries) with
      | Some t => Some {| fz_salt := hd [] (snd t); fz_N := to_be N; fz_x := to_be (z ^ fst t mod N); fz_y := to_be (fst t + (N - phi_list l) * e t) |}
      | None => None
      end.
  Proof.
    intros F ND NE HB G FT N e. unfold fz_new. destruct (bitlen N <? 2048); [reflexivity|]. unfold fz_retry.
    assert (FT' : Forall (fun t : Z * list bytes => 0 <= fst t /\ snd t <> []) (firstn 100 tries)) by (rewrite Forall_forall in *; intros t I; apply FT; rewrite <- (firstn_skipn 100 tries); apply in_or_app; auto).
    assert (EU : euler_function l = Some (phi_list l)).
    { rewrite C39_euler_product. destruct l as [|p0 l0]; [contradiction NE; reflexivity|]. assert (X : forallb (fun p => 1 <? p) (p0 :: l0) = true) by (apply forallb_forall; intros p I; rewrite Forall_forall in F; pose proof (prime_ge_2 _ (F p I)); lia). rewrite X. reflexivity. }
    revert FT'. generalize (firstn 100 tries). clear tries FT. intros tries FT. induction tries as [|[r salts] t IH]; [reflexivity|]. cbn [fz_loop find fst snd]. fold N in G. rewrite G, EU. pose proof (Forall_inv FT) as [Hr HS]. cbn [fst snd] in Hr, HS. destruct salts as [|s salts]; [contradiction HS; reflexivity|].
    change 100%nat with (S 99). cbn [firstn reject_loop]. assert (R : in_range (of_be (hash_protos B s [to_be (z ^ r mod N); to_be z; to_be N])) 0 (2 ^ 256) = true).
    { apply in_range_true. pose proof (of_be_range (hash_protos B s [to_be (z ^ r mod N); to_be z; to_be N])) as OB. unfold hash_protos in *. rewrite HB in OB. exact OB. }
    rewrite R. pose proof (C48_attempt l r z s F ND NE Hr G) as AT. cbv zeta in AT. fold N in AT. unfold e at 1. cbn [fst snd hd]. unfold fz_e in AT. set (ev := of_be _ mod 2 ^ 80) in *.
    destruct (fz_verify B (fz_msg N (phi_list l) r z ev s)) eqn:V.
    - pose proof (proj1 AT eq_refl) as L. apply Z.ltb_lt in L. rewrite L. reflexivity.
    - destruct (Z.ltb_spec (r + (N - phi_list l) * ev) (N - 1)) as [L|L]; [apply AT in L; discriminate L|]. apply IH, (Forall_inv_tail FT).
  Qed.
  (** two accepted proofs with the same commitment and different challenges yield a positive multiple of the order of z *)
  Theorem C48_extract m1 m2 z : fz_verify B m1 = true -> fz_verify B m2 = true -> of_be (fz_N m1) = of_be (fz_N m2) -> of_be (fz_x m1) = of_be (fz_x m2) ->
    let N := of_be (fz_N m1) in let x := of_be (fz_x m1) in generate_z B N = Some z -> fz_e B (fz_salt m1) x z N <> fz_e B (fz_salt m2) x z N ->
    exists k, 0 < k /\ cong N (z ^ k) 1.
  Proof.
    intros V1 V2 EN EX N x G NE. apply C48_verify in V1. apply C48_verify in V2. rewrite <- EN, <- EX in V2. fold N x in V1, V2.
    destruct V1 as [R1 [Y1 [z1 [G1 [U1 E1]]]]]. destruct V2 as [_ [Y2 [z2 [G2 [_ E2]]]]]. assert (z1 = z) by congruence. assert (z2 = z) by congruence. subst z1 z2.
    change (of_be (hash_protos B (fz_salt m1) [to_be x; to_be z; to_be N]) mod 2 ^ 80) with (fz_e B (fz_salt m1) x z N) in E1.
    change (of_be (hash_protos B (fz_salt m2) [to_be x; to_be z; to_be N]) mod 2 ^ 80) with (fz_e B (fz_salt m2) x z N) in E2.
    set (e1 := fz_e B (fz_salt m1) x z N) in *. set (e2 := fz_e B (fz_salt m2) x z N) in *. set (y1 := of_be (fz_y m1)) in *. set (y2 := of_be (fz_y m2)) in *. clearbody e1 e2 y1 y2 N x. clear EN EX G G1 G2. assert (N0 : 0 < N) by lia.
    assert (W : forall k1 k2, k1 < k2 -> expm z k1 N = Some x -> expm z k2 N = Some x -> exists k, 0 < k /\ cong N (z ^ k) 1).
    { intros k1 k2 L A1 A2. exists (k2 - k1). split; [lia|]. assert (J : exists j, 0 <= j /\ 0 <= k1 + j /\ 0 <= k2 + j) by (exists (Z.abs k1 + Z.abs k2); lia). destruct J as [j [J0 [J1 J2]]].
      pose proof (expm_char _ _ _ _ N0 A1 j J0 J1) as C1. pose proof (expm_char _ _ _ _ N0 A2 j J0 J2) as C2.
      rewrite C1 in C2. replace (k2 + j) with (k1 + j + (k2 - k1)) in C2 by lia. rewrite (Z.pow_add_r z (k1 + j) (k2 - k1)) in C2 by lia.
      rewrite <- (Z.mul_1_r (z ^ (k1 + j))) in C2 at 1. apply unit_cancel in C2; [symmetry; exact C2|]. apply gcd_pow_1; [lia|exact U1]. }
    assert (D : y1 - N * e1 < y2 - N * e2 \/ y2 - N * e2 < y1 - N * e1).
    { assert (e1 < e2 \/ e2 < e1) by lia. nia. }
    destruct D as [D|D]; [eapply W; [exact D|exact E1|exact E2]|eapply W; [exact D|exact E2|exact E1]].
  Qed.
  (** the documented range of z (2 .. N-2) is not enforced: if the hash value is 1, every y is accepted with x = 1, without knowing anything about N *)
  Theorem C48_trivial_base_refuted N y salt : 2 <= N -> ext_hash B [zb 1] (to_be N) (bitlen N) = 1 -> 0 <= y < N - 1 ->
    fz_verify B {| fz_salt := salt; fz_N := to_be N; fz_x := [zb 1]; fz_y := to_be y |} = true.
  Proof.
    intros HN H Hy. apply C48_verify. cbn [fz_N fz_x fz_y fz_salt]. rewrite !of_be_to_be_nonneg by lia. change (of_be [zb 1]) with 1.
    split; [lia|]. split; [lia|]. exists 1. rewrite C48_base. cbv zeta. rewrite H, Z.gcd_1_l. split; [reflexivity|]. split; [reflexivity|]. set (k := y - N * _). clearbody k. assert (N0 : 0 < N) by lia.
    destruct (expm_unit 1 k N ltac:(lia) (Z.gcd_1_l N)) as [v Ev]. rewrite Ev. f_equal. pose proof (expm_range _ _ _ _ N0 Ev) as R.
    pose proof (expm_char _ _ _ _ N0 Ev (Z.abs k) ltac:(lia) ltac:(lia)) as C. rewrite !Z.pow_1_l, Z.mul_1_r in C by lia. apply (cong_small N); [lia|lia|exact C].
  Qed.
End C48.
(** the situation is possible: a hash whose first byte is 1 and an 8-bit modulus *)
Theorem C48_trivial_base_ex : let B := fun _ : bytes => zb 1 :: repeat (zb 0) 31 in ext_hash B [zb 1] (to_be 143) (bitlen 143) = 1 /\
  fz_verify B {| fz_salt := []; fz_N := to_be 143; fz_x := [zb 1]; fz_y := to_be 7 |} = true.
Proof. split; vm_compute; reflexivity. Qed.
(** a proof for N = 11 * 13 with a hash that gives the base 2 and the challenge 0 *)
Theorem C48_example : let B := fun _ : bytes => zb 2 :: repeat (zb 0) 31 in generate_z B 143 = Some 2 /\ Forall prime [11; 13] /\
  fz_verify B (fz_msg 143 (phi_list [11; 13]) 5 2 (fz_e B [] (2 ^ 5 mod 143) 2 143) []) = true.
Proof.
  split; [vm_compute; reflexivity|]. split; [|vm_compute; reflexivity].
  constructor; [apply small_prime; [lia|reflexivity]|constructor; [apply small_prime; [lia|reflexivity]|constructor]].
Qed.
