(** RingPed.v -- crypto/alice/zkproof/paillier/ring_pedersenzkproof.go, pederssenOpenParameter.go and
    crypto/alice/paillier/ringpedersen.go: ring-Pedersen parameters and their proof.

    blake2b-256 is the function argument [B]; random draws are arguments. A [true] result of Verify is a nil error. *)
From Verif Require Import Base BigInt NumTh Euler Carmichael RangeProofs RangeThm AliceUtils.
From Coq Require Import Znumtheory.

(** the message of message.proto: RingPederssenParameterMessage *)
Record rpmsg := { rp_Z : list bytes; rp_A : list bytes; rp_N : bytes; rp_S : bytes; rp_T : bytes; rp_salt : bytes }.
(** ring_pedersenzkproof.go 31 MINIMALCHALLENGE *)
Definition rp_min : nat := 10.

Section Rp.
  Variable B : bytes -> bytes.
  (** ring_pedersenzkproof.go 59-63 and 111-115: the challenge bit of one repetition *)
  Definition rp_e (salt ssid : bytes) (n s t : Z) (Ab : bytes) : Z :=
    of_be (hash_protos B salt [ssid; to_be n; to_be s; to_be t; Ab]) mod 2.
  (** ring_pedersenzkproof.go 51-69: one repetition with draw a (for a positive modulus and a non-negative draw) *)
  Definition rp_one (ssid salt : bytes) (phi n s t lambda a : Z) : bytes * bytes :=
    let Ai := t ^ a mod n in
    let e := rp_e salt ssid n s t (to_be Ai) in
    (to_be Ai, to_be ((a + e * lambda) mod phi)).
  (** ring_pedersenzkproof.go 40-80 NewRingPederssenParameterMessage: the draws are the results of RandomInt(eulerValue) *)
  Definition rp_new (ssid : bytes) (phi n s t lambda : Z) (salt : bytes) (draws : list Z) : option rpmsg :=
    if Nat.ltb (length draws) rp_min then None else
    let l := map (rp_one ssid salt phi n s t lambda) draws in
    Some {| rp_Z := map snd l; rp_A := map fst l; rp_N := to_be n; rp_S := to_be s; rp_T := to_be t; rp_salt := salt |}.
  (** ring_pedersenzkproof.go 94-123: one repetition; indexing past the end of Z panics *)
  Definition rp_check (salt ssid : bytes) (n s t : Z) (Ab : bytes) (zb : option bytes) : outcome bool :=
    let Ai := of_be Ab in
    if negb (in_range0 Ai n) then Ret false else
    if negb (rel_primeb Ai n) then Ret false else
    match zb with
    | None => Panic
    | Some zb =>
      let zi := of_be zb in
      if negb (in_range0 zi n) then Ret false else
      let e := rp_e salt ssid n s t Ab in
      Ret ((t ^ zi) mod n =? ((s ^ e mod n) * Ai) mod n)
    end.
  Fixpoint rp_loop (salt ssid : bytes) (n s t : Z) (A Z : list bytes) : outcome bool :=
    match A with
    | [] => Ret true
    | a :: A => let! ok := rp_check salt ssid n s t a (hd_error Z) in if ok then rp_loop salt ssid n s t A (tl Z) else Ret false
    end.
  (** ring_pedersenzkproof.go 82-125 Verify *)
  Definition rp_verify (ssid : bytes) (m : rpmsg) : outcome bool :=
    if Nat.ltb (length (rp_A m)) rp_min then Ret false else
    rp_loop (rp_salt m) ssid (of_be (rp_N m)) (of_be (rp_S m)) (of_be (rp_T m)) (rp_A m) (rp_Z m).
End Rp.

(** ringpedersen.go 53-76 NewPedersenParameterByPaillier: draws lambda and tau; result (phi, n, s, t, lambda) *)
Definition ped_of_paillier (p q lambda tau : Z) : option (Z * Z * Z * Z * Z) :=
  match euler_function [p; q] with
  | None => None
  | Some phi => let n := p * q in let t := tau ^ 2 mod n in let s := t ^ lambda mod n in Some (phi, n, s, t, lambda)
  end.
(** ringpedersen.go 78-89 NewPedersenOpenParameter; safePubKeySize is 2048 *)
Definition ped_open (n s t : Z) : option (Z * Z * Z) :=
  if negb (rel_primeb s n) then None else if negb (rel_primeb t n) then None else
  if bitlen n <? 2048 then None else Some (n, s, t).

Section Thm.
  Variable B : bytes -> bytes.
  Lemma rp_e_01 salt ssid n s t Ab : rp_e B salt ssid n s t Ab = 0 \/ rp_e B salt ssid n s t Ab = 1.
  Proof. unfold rp_e. pose proof (Z.mod_pos_bound (of_be (hash_protos B salt [ssid; to_be n; to_be s; to_be t; Ab])) 2 ltac:(lia)). lia. Qed.
  (** what one repetition demands *)
  Definition rp_good (salt ssid : bytes) (n s t : Z) (Ab zb : bytes) : Prop :=
    0 <= of_be Ab < n /\ Z.gcd (of_be Ab) n = 1 /\ 0 <= of_be zb < n /\ cong n (t ^ of_be zb) (of_be Ab * s ^ rp_e B salt ssid n s t Ab).
  Lemma rp_check_true salt ssid n s t Ab zb : rp_check B salt ssid n s t Ab (Some zb) = Ret true <-> rp_good salt ssid n s t Ab zb.
  Proof.
    unfold rp_check, rp_good. destruct (in_range0 (of_be Ab) n) eqn:R1; cbn [negb].
    2:{ split; [discriminate|]. intros [H _]. rewrite in_range0_true in R1 by exact H. discriminate. }
    apply in_range0_inv in R1. unfold rel_primeb. destruct (Z.eqb_spec (Z.gcd (of_be Ab) n) 1) as [G|G]; cbn [negb].
    2:{ split; [discriminate|]. tauto. }
    destruct (in_range0 (of_be zb) n) eqn:R2; cbn [negb].
    2:{ split; [discriminate|]. intros [_ [_ [H _]]]. rewrite in_range0_true in R2 by exact H. discriminate. }
    apply in_range0_inv in R2. set (e := rp_e B salt ssid n s t Ab).
    assert (E : cong n (t ^ of_be zb) (of_be Ab * s ^ e) <-> (t ^ of_be zb mod n =? (s ^ e mod n * of_be Ab) mod n) = true).
    { rewrite cong_eq by lia. rewrite Z.eqb_eq. rewrite Z.mul_mod_idemp_l by lia. rewrite (Z.mul_comm (of_be Ab)). reflexivity. }
    rewrite E. split.
    - intro H. injection H as H. tauto.
    - intros [_ [_ [_ H]]]. now rewrite H.
  Qed.
  Lemma rp_loop_true salt ssid n s t A Zs : (length A <= length Zs)%nat ->
    rp_loop B salt ssid n s t A Zs = Ret true <-> forall i a z, nth_error A i = Some a -> nth_error Zs i = Some z -> rp_good salt ssid n s t a z.
  Proof.
    revert Zs. induction A as [|a A IH]; intros Zs L; cbn [rp_loop].
    - split; [intros _ [|i] ? ? H; discriminate|reflexivity].
    - destruct Zs as [|z Zs]; [cbn in L; lia|]. cbn [hd_error tl]. cbn [length] in L. split.
      + intro E. destruct (rp_check B salt ssid n s t a (Some z)) as [[|]|] eqn:K; cbn in E; try discriminate.
        intros [|i] a' z' Ha Hz; cbn in Ha, Hz.
        * injection Ha as <-. injection Hz as <-. now apply rp_check_true.
        * eapply IH; [|exact E|exact Ha|exact Hz]. lia.
      + intro F. assert (K : rp_check B salt ssid n s t a (Some z) = Ret true) by (apply rp_check_true; apply (F 0%nat); reflexivity).
        rewrite K. cbn. apply IH; [lia|]. intros i a' z' Ha Hz. apply (F (S i)); assumption.
  Qed.
End Thm.
