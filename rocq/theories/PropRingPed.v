(** PropRingPed.v -- property C42: ring-Pedersen parameter proofs. *)
From Verif Require Import Base BigInt NumTh Euler Carmichael RangeProofs RangeThm AliceUtils RingPed.
From Coq Require Import Znumtheory.

(** Euler's theorem for a product of two different primes *)
Lemma euler_pq p q a : prime p -> prime q -> p <> q -> Z.gcd a (p * q) = 1 -> cong (p * q) (a ^ ((p - 1) * (q - 1))) 1.
Proof.
  intros P Q N G. pose proof (prime_ge_2 _ P). pose proof (prime_ge_2 _ Q). apply cong_crt; [now apply primes_rel| |].
  - apply (pow_one_mult p a (p - 1)); [lia|nia|exists (q - 1); ring|]. apply fermat; [exact P|now apply (gcd_factor_l a p q)].
  - apply (pow_one_mult q a (q - 1)); [lia|nia|exists (p - 1); ring|]. apply fermat; [exact Q|now apply (gcd_factor_r a p q)].
Qed.
Lemma pow_mod_exp n a e k : 0 < n -> 0 < e -> 0 <= k -> cong n (a ^ e) 1 -> cong n (a ^ (k mod e)) (a ^ k).
Proof.
  intros Hn He Hk C. pose proof (Z.div_mod k e ltac:(lia)) as D. pose proof (Z.mod_pos_bound k e He) as Bd.
  assert (Hd : 0 <= k / e) by (apply Z.div_pos; lia). set (d := k / e) in *. set (r := k mod e) in *. rewrite D. clearbody d r.
  rewrite Z.pow_add_r by nia. rewrite Z.pow_mul_r by lia. rewrite (cong_pow _ _ _ d C). rewrite Z.pow_1_l by lia. now rewrite Z.mul_1_l.
Qed.

Section C42.
  Variable B : bytes -> bytes.
  (** Verify without enough responses apart, a message is accepted exactly when it has at least ten repetitions and each of them has a unit
      commitment below N, a response below N, and t^z = A s^e (mod N) for the challenge bit e of that commitment *)
  Theorem C42_verify ssid m : (length (rp_A m) <= length (rp_Z m))%nat ->
    let n := of_be (rp_N m) in let s := of_be (rp_S m) in let t := of_be (rp_T m) in
    rp_verify B ssid m = Ret true <->
    (10 <= length (rp_A m))%nat /\ forall i a z, nth_error (rp_A m) i = Some a -> nth_error (rp_Z m) i = Some z ->
      0 <= of_be a < n /\ Z.gcd (of_be a) n = 1 /\ 0 <= of_be z < n /\
      cong n (t ^ of_be z) (of_be a * s ^ (of_be (hash_protos B (rp_salt m) [ssid; to_be n; to_be s; to_be t; a]) mod 2)).
  Proof.
    intros L n s t. unfold rp_verify, rp_min. destruct (Nat.ltb_spec (length (rp_A m)) 10) as [K|K].
    - split; [discriminate|]. intros [X _]. lia.
    - fold n s t. rewrite rp_loop_true by exact L. unfold rp_good, rp_e. split; [intro F; split; [lia|exact F]|now intros [_ F]].
  Qed.
  (** with as many responses as commitments Verify never panics *)
  Theorem C42_verify_total ssid m : (length (rp_A m) <= length (rp_Z m))%nat -> exists b, rp_verify B ssid m = Ret b.
  Proof.
    intro L. unfold rp_verify. destruct (Nat.ltb _ _); [now exists false|].
    generalize dependent (rp_Z m). generalize (rp_A m). generalize (of_be (rp_N m)) (of_be (rp_S m)) (of_be (rp_T m)). intros n s t A.
    induction A as [|a A IH]; intros Zs L; [now exists true|]. destruct Zs as [|z Zs]; [cbn in L; lia|]. cbn [rp_loop hd_error tl].
    assert (K : exists b, rp_check B (rp_salt m) ssid n s t a (Some z) = Ret b).
    { unfold rp_check. destruct (negb _); [now exists false|]. destruct (negb _); [now exists false|]. destruct (negb _); [now exists false|]. eexists. reflexivity. }
    destruct K as [[|] K]; rewrite K; cbn; [apply IH; cbn in L; lia|now exists false].
  Qed.
  (** but a message with too few responses crashes the verifier *)
  Theorem C42_short_response_refuted ssid N S T salt : 1 < of_be N ->
    rp_verify B ssid {| rp_Z := []; rp_A := repeat [zb 1] 10; rp_N := N; rp_S := S; rp_T := T; rp_salt := salt |} = Panic.
  Proof.
    intro H. unfold rp_verify. cbn [rp_A rp_Z rp_N rp_S rp_T rp_salt]. rewrite repeat_length. cbn [Nat.ltb Nat.leb rp_min repeat rp_loop hd_error].
    unfold rp_check. change (of_be [zb 1]) with 1. rewrite in_range0_true by lia. cbn [negb]. unfold rel_primeb. rewrite Z.gcd_1_l. reflexivity.
  Qed.

  (** an honest proof always verifies: N a product of two different primes, t a unit, s = t^lambda *)
  Theorem C42_complete ssid p q lambda t salt draws m : prime p -> prime q -> p <> q -> 0 <= lambda -> 0 <= t < p * q -> Z.gcd t (p * q) = 1 ->
    Forall (fun a => 0 <= a < (p - 1) * (q - 1)) draws ->
    rp_new B ssid ((p - 1) * (q - 1)) (p * q) (t ^ lambda mod (p * q)) t lambda salt draws = Some m -> rp_verify B ssid m = Ret true.
  Proof.
    intros P Q N Hl Ht G F. pose proof (prime_ge_2 _ P) as P2. pose proof (prime_ge_2 _ Q) as Q2. pose proof (euler_pq p q t P Q N G) as EU.
    assert (Phi : 0 < (p - 1) * (q - 1) < p * q) by nia. set (phi := (p - 1) * (q - 1)) in *. assert (N1 : 1 < p * q) by nia. set (n := p * q) in *. clearbody phi n. clear P Q N P2 Q2.
    set (s := t ^ lambda mod n). assert (Hs : 0 <= s < n) by (apply Z.mod_pos_bound; lia).
    unfold rp_new, rp_min. destruct (Nat.ltb_spec (length draws) 10) as [K|K]; [discriminate|]. intro E.
    assert (M : m = {| rp_Z := map snd (map (rp_one B ssid salt phi n s t lambda) draws); rp_A := map fst (map (rp_one B ssid salt phi n s t lambda) draws);
                       rp_N := to_be n; rp_S := to_be s; rp_T := to_be t; rp_salt := salt |}) by congruence. subst m. clear E.
    unfold rp_verify. cbn [rp_A rp_Z rp_N rp_S rp_T rp_salt]. rewrite !map_length. unfold rp_min. destruct (Nat.ltb_spec (length draws) 10); [lia|].
    rewrite !of_be_to_be_nonneg by lia. apply rp_loop_true; [rewrite !map_length; lia|].
    intros i a z Ha Hz. rewrite map_map in Ha, Hz. rewrite nth_error_map in Ha, Hz. destruct (nth_error draws i) as [d|] eqn:D; [|discriminate].
    cbn [option_map] in Ha, Hz. rewrite Forall_forall in F. specialize (F d (nth_error_In _ _ D)).
    unfold rp_one in Ha, Hz. cbn [fst snd] in Ha, Hz. assert (Ea : a = to_be (t ^ d mod n)) by congruence. subst a.
    assert (Ez : z = to_be ((d + rp_e B salt ssid n s t (to_be (t ^ d mod n)) * lambda) mod phi)) by congruence. subst z. clear Ha Hz.
    set (e := rp_e B salt ssid n s t (to_be (t ^ d mod n))). assert (E01 : e = 0 \/ e = 1) by apply rp_e_01.
    assert (Rt : 0 <= t ^ d mod n < n) by (apply Z.mod_pos_bound; lia).
    assert (Rz : 0 <= (d + e * lambda) mod phi < phi) by (apply Z.mod_pos_bound; lia).
    unfold rp_good. fold e. rewrite !of_be_to_be_nonneg by lia.
    split; [exact Rt|]. split; [|split; [lia|]].
    - rewrite (gcd_cong n _ (t ^ d)) by (apply cong_mod; lia). apply gcd_pow_1; [lia|exact G].
    - assert (X : 0 <= d + e * lambda) by (destruct E01 as [->| ->]; lia).
      rewrite (pow_mod_exp n t phi (d + e * lambda)) by (lia || exact EU).
      rewrite (cong_mod n (t ^ d)) by lia. unfold s. rewrite (cong_pow n _ _ e (cong_mod n (t ^ lambda) ltac:(lia))).
      rewrite <- Z.pow_mul_r by (destruct E01 as [->| ->]; lia). rewrite <- Z.pow_add_r by (destruct E01 as [->| ->]; lia).
      rewrite (Z.mul_comm lambda e). reflexivity.
  Qed.
  (** fewer than ten repetitions: no proof, and no proof is accepted *)
  Theorem C42_too_few ssid phi n s t lambda salt draws m : (length draws < 10)%nat -> (length (rp_A m) < 10)%nat ->
    rp_new B ssid phi n s t lambda salt draws = None /\ rp_verify B ssid m = Ret false.
  Proof.
    intros H1 H2. unfold rp_new, rp_verify, rp_min. split; [destruct (Nat.ltb_spec (length draws) 10); [reflexivity|lia]|].
    destruct (Nat.ltb_spec (length (rp_A m)) 10); [reflexivity|lia].
  Qed.
  (** a prover that can answer both challenges for one commitment knows a logarithm of s in base t *)
  Theorem C42_extract n s t A z0 z1 : 0 < n -> 0 <= z0 -> 0 <= z1 -> Z.gcd t n = 1 ->
    cong n (t ^ z0) (A * s ^ 0) -> cong n (t ^ z1) (A * s ^ 1) -> expm t (z1 - z0) n = Some (s mod n).
  Proof.
    intros Hn H0 H1 Gt E0 E1. rewrite Z.pow_0_r, Z.mul_1_r in E0. rewrite Z.pow_1_r in E1. rewrite <- E0 in E1.
    destruct (expm_unit t (z1 - z0) n Hn Gt) as [r Er]. pose proof (expm_char _ _ _ _ Hn Er z0 H0 ltac:(lia)) as C. pose proof (expm_range _ _ _ _ Hn Er) as Rr.
    replace (z1 - z0 + z0) with z1 in C by lia. rewrite E1 in C. rewrite (Z.mul_comm r) in C. apply unit_cancel in C; [|apply gcd_pow_1; [lia|exact Gt]].
    rewrite Er. f_equal. apply cong_eq in C; [|lia]. rewrite <- C. symmetry. now apply Z.mod_small.
  Qed.
  (** an alteration of a response that changes t^z is always rejected *)
  Theorem C42_tampered_response ssid m m' i a z z' : (length (rp_A m) <= length (rp_Z m))%nat -> (length (rp_A m) <= length (rp_Z m'))%nat ->
    rp_A m' = rp_A m -> rp_N m' = rp_N m -> rp_S m' = rp_S m -> rp_T m' = rp_T m -> rp_salt m' = rp_salt m ->
    nth_error (rp_A m) i = Some a -> nth_error (rp_Z m) i = Some z -> nth_error (rp_Z m') i = Some z' ->
    ~ cong (of_be (rp_N m)) (of_be (rp_T m) ^ of_be z) (of_be (rp_T m) ^ of_be z') ->
    rp_verify B ssid m = Ret true -> rp_verify B ssid m' <> Ret true.
  Proof.
    intros L L' EA EN ES ET Esalt Ha Hz Hz' NC V V'. apply C42_verify in V; [|exact L]. apply C42_verify in V'; [|now rewrite EA].
    rewrite EA, EN, ES, ET, Esalt in V'. destruct V as [_ V], V' as [_ V']. destruct (V i a z Ha Hz) as [_ [_ [_ C1]]]. destruct (V' i a z' Ha Hz') as [_ [_ [_ C2]]].
    apply NC. rewrite C1, <- C2. reflexivity.
  Qed.

  (** the verifier has no lower bound on N: the modulus 1 carries a proof for anything *)
  Theorem C42_trivial_modulus_refuted ssid S T salt : rp_verify B ssid {| rp_Z := repeat [] 10; rp_A := repeat [] 10; rp_N := [zb 1]; rp_S := S; rp_T := T; rp_salt := salt |} = Ret true.
  Proof.
    apply C42_verify; [cbn; lia|]. cbn [rp_A rp_Z rp_N rp_S rp_T rp_salt]. rewrite repeat_length. split; [lia|].
    intros i a z Ha Hz. apply nth_error_In, repeat_spec in Ha. apply nth_error_In, repeat_spec in Hz. subst a z. change (of_be [zb 1]) with 1. change (of_be []) with 0.
    split; [lia|]. split; [reflexivity|]. split; [lia|]. eexists. rewrite Z.mul_1_r. reflexivity.
  Qed.
  (** the parameters made from a Paillier key are provable when tau is a unit ... *)
  Theorem C42_pedersen_complete_partial ssid p q lambda tau salt draws phi n s t l m : prime p -> prime q -> p <> q -> 0 <= lambda -> 0 <= tau -> Z.gcd tau (p * q) = 1 ->
    ped_of_paillier p q lambda tau = Some (phi, n, s, t, l) -> Forall (fun a => 0 <= a < phi) draws ->
    rp_new B ssid phi n s t l salt draws = Some m -> rp_verify B ssid m = Ret true /\ Z.gcd s n = 1 /\ Z.gcd t n = 1 /\ exists x, cong n t (x * x).
  Proof.
    intros P Q N Hl Ht G E F R. pose proof (prime_ge_2 _ P) as P2. pose proof (prime_ge_2 _ Q) as Q2. unfold ped_of_paillier in E. rewrite C39_euler_product in E. cbn [forallb fold_right] in E.
    destruct (Z.ltb_spec 1 p); [|lia]. destruct (Z.ltb_spec 1 q); [|lia]. cbn [andb] in E.
    assert (n = p * q) by congruence. subst n. assert (t = tau ^ 2 mod (p * q)) by congruence. assert (l = lambda) by congruence. subst l.
    assert (s = t ^ lambda mod (p * q)) by (subst t; congruence). assert (phi = (p - 1) * (q - 1)) by (assert (phi = (p - 1) * ((q - 1) * 1)) by congruence; lia). clear E. subst phi.
    assert (N1 : 1 < p * q) by nia.
    assert (Gt : Z.gcd t (p * q) = 1) by (subst t; rewrite (gcd_cong (p * q) _ (tau ^ 2)) by (apply cong_mod; lia); apply gcd_pow_1; [lia|exact G]).
    assert (Gs : Z.gcd s (p * q) = 1) by (subst s; rewrite (gcd_cong (p * q) _ (t ^ lambda)) by (apply cong_mod; lia); apply gcd_pow_1; [lia|exact Gt]).
    assert (Rt : 0 <= t < p * q) by (subst t; apply Z.mod_pos_bound; lia).
    split; [|split; [exact Gs|split; [exact Gt|]]].
    - subst s. eapply (C42_complete ssid p q lambda t); eassumption.
    - exists tau. subst t. rewrite (cong_mod (p * q)) by lia. rewrite Z.pow_2_r. reflexivity.
  Qed.
  (** ... but tau is not checked: a tau that shares a factor with N gives parameters whose proof never verifies (for any draw a > 0) *)
  Theorem C42_pedersen_nonunit_refuted ssid p q lambda tau salt draws phi n s t l m : prime p -> prime q -> p <> q -> 0 < lambda -> Z.gcd tau (p * q) <> 1 ->
    ped_of_paillier p q lambda tau = Some (phi, n, s, t, l) -> Forall (fun a => 0 < a < phi) draws ->
    rp_new B ssid phi n s t l salt draws = Some m -> rp_verify B ssid m <> Ret true.
  Proof.
    intros P Q N Hl G E F R V. pose proof (prime_ge_2 _ P) as P2. pose proof (prime_ge_2 _ Q) as Q2.
    unfold ped_of_paillier in E. destruct (euler_function [p; q]) as [ph|]; [|discriminate].
    assert (n = p * q) by congruence. assert (t = tau ^ 2 mod n) by (subst n; congruence). subst n. clear E.
    assert (N1 : 1 < p * q) by nia. set (n := p * q) in *.
    assert (L : (length (rp_A m) <= length (rp_Z m))%nat /\ exists d dl, draws = d :: dl /\ nth_error (rp_A m) 0 = Some (to_be (t ^ d mod n)) /\ (exists z, nth_error (rp_Z m) 0 = Some z) /\ of_be (rp_N m) = n).
    { unfold rp_new, rp_min in R. destruct (Nat.ltb_spec (length draws) 10) as [K|K]; [discriminate|]. injection R as <-. cbn [rp_A rp_Z rp_N]. split; [rewrite !map_length; lia|].
      destruct draws as [|d dl]; [cbn in K; lia|]. exists d, dl. split; [reflexivity|]. split; [reflexivity|]. split; [eexists; reflexivity|]. apply of_be_to_be_nonneg. lia. }
    destruct L as [L [d [dl [-> [HA0 [[z Hz] HN]]]]]]. apply C42_verify in V; [|exact L]. destruct V as [_ V]. destruct (V 0%nat _ _ HA0 Hz) as [_ [Gd _]]. rewrite HN in Gd.
    inversion F as [|? ? Fd _]. rewrite of_be_to_be_nonneg in Gd by (apply Z.mod_pos_bound; lia).
    rewrite (gcd_cong n _ (t ^ d)) in Gd by (apply cong_mod; lia). apply G.
    assert (D : (Z.gcd tau n | t)).
    { subst t. assert (X : (Z.gcd tau n | tau ^ 2 mod n)).
      { rewrite Z.mod_eq by lia. apply Z.divide_sub_r; [rewrite Z.pow_2_r; apply Z.divide_mul_l, Z.gcd_divide_l|apply Z.divide_mul_l, Z.gcd_divide_r]. } exact X. }
    assert (D2 : (Z.gcd tau n | t ^ d)). { replace d with (Z.succ (d - 1)) by lia. rewrite Z.pow_succ_r by lia. apply Z.divide_mul_l. exact D. }
    assert (D1 : (Z.gcd tau n | 1)) by (rewrite <- Gd; apply Z.gcd_greatest; [exact D2|apply Z.gcd_divide_r]).
    apply Z.divide_1_r in D1. pose proof (Z.gcd_nonneg tau n). lia.
  Qed.
  (** received parameters that pass are units of a modulus of at least 2048 bits *)
  Theorem C42_open n s t r : ped_open n s t = Some r <-> r = (n, s, t) /\ Z.gcd s n = 1 /\ Z.gcd t n = 1 /\ 2048 <= bitlen n.
  Proof.
    unfold ped_open, rel_primeb. destruct (Z.eqb_spec (Z.gcd s n) 1); cbn [negb]; [|split; [discriminate|tauto]].
    destruct (Z.eqb_spec (Z.gcd t n) 1); cbn [negb]; [|split; [discriminate|tauto]].
    destruct (Z.ltb_spec (bitlen n) 2048); [split; [discriminate|lia]|]. split; [intro X; injection X as <-; auto|intros [-> _]; reflexivity].
  Qed.
End C42.
(** a complete honest run over N = 7 * 11 with ten repetitions *)
Theorem C42_example : exists m, rp_new (fun _ => [zb 3]) [] 60 77 (4 ^ 5 mod 77) 4 5 [] [1; 2; 3; 4; 5; 6; 7; 8; 9; 10] = Some m /\ rp_verify (fun _ => [zb 3]) [] m = Ret true /\
  ped_of_paillier 7 11 5 2 = Some (60, 77, 4 ^ 5 mod 77, 4, 5).
Proof. eexists. split; [reflexivity|]. split; vm_compute; reflexivity. Qed.
