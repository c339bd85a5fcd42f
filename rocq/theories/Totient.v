(** Totient.v -- C39: EulerFunction computes Euler's totient of the product of distinct primes.
    The totient is mathcomp's [totient n] = the number of naturals below n that are coprime to n. *)
From Coq Require Znumtheory.
From Verif Require Import Base AliceUtils.
From mathcomp Require Import ssreflect ssrfun ssrbool eqtype ssrnat seq div prime.

Definition totient_spec (n : nat) : nat := totient n.

Lemma prime_conv (p : Z) : Znumtheory.prime p -> prime (Z.to_nat p) /\ Z.of_nat (Z.to_nat p) = p.
Proof.
  move=> P. have B := Znumtheory.prime_ge_2 p P. have E : Z.of_nat (Z.to_nat p) = p by rewrite Z2Nat.id //; Lia.lia. split; last by [].
  apply/primeP; split; first by apply/ltP; Lia.lia.
  move=> d /dvdnP [k K].
  have D : Z.divide (Z.of_nat d) p by exists (Z.of_nat k); rewrite -E -Nat2Z.inj_mul K multE.
  case: (Znumtheory.prime_divisors p P _ D) => [|[|[|]]] H; try Lia.lia.
  - apply/orP; left; apply/eqP; Lia.lia.
  - apply/orP; right; apply/eqP; Lia.lia.
Qed.

Local Open Scope nat_scope.
Lemma prod_coprime (p : nat) (l : seq nat) : prime p -> all prime l -> p \notin l -> coprime p (foldr muln 1 l).
Proof.
  move=> P. elim: l => [|q l IH] /=; first by rewrite coprimen1.
  case/andP => Q A. rewrite inE negb_or => /andP [N M]. rewrite coprimeMr IH // andbT. by rewrite prime_coprime // dvdn_prime2.
Qed.
Lemma totient_prod (l : seq nat) : all prime l -> uniq l -> totient (foldr muln 1 l) = foldr (fun p a => p.-1 * a) 1 l.
Proof.
  elim: l => [|p l IH] //= /andP [P A] /andP [N U]. by rewrite totient_coprime ?prod_coprime // totient_prime // IH.
Qed.
Lemma fold_nonneg (l : list Z) : List.Forall Znumtheory.prime l -> (0 <= List.fold_right Z.mul 1 l)%Z.
Proof. elim => [|p l0 P _ IH] /=; first by []. have B := Znumtheory.prime_ge_2 p P. apply: Z.mul_nonneg_nonneg => //. Lia.lia. Qed.

(** For every non-empty list of distinct primes the result is the totient of their product. *)
Theorem C39_euler_totient (l : list Z) : l <> nil -> List.Forall Znumtheory.prime l -> List.NoDup l ->
  euler_function l = Some (Z.of_nat (totient_spec (Z.to_nat (List.fold_right Z.mul 1%Z l)))).
Proof.
  move=> NE F U. rewrite C39_euler_product.
  have -> : (match l with nil => false | _ => List.forallb (fun p : Z => (1 <? p)%Z) l end) = true.
  { move: NE F; case: l U => // a l _ _ F. apply/List.forallb_forall => p I. move/List.Forall_forall: F => /(_ p I) P. have := Znumtheory.prime_ge_2 p P. Lia.lia. }
  congr Some. rewrite /totient_spec.
  have [A1 A2] : Z.to_nat (List.fold_right Z.mul 1%Z l) = foldr muln 1 (map Z.to_nat l) /\ all prime (map Z.to_nat l).
  { clear NE U. elim: F => [|p l0 P F [IH1 IH2]] //=. have [P1 P2] := prime_conv p P. split; last by rewrite P1.
    have B := Znumtheory.prime_ge_2 p P. rewrite Z2Nat.inj_mul; [|Lia.lia|exact: fold_nonneg]. by rewrite IH1 multE. }
  have A3 : uniq (map Z.to_nat l).
  { clear NE A1 A2. elim: U F => [|p l0 N U IH] //= F. have F0 := List.Forall_inv F. have F1 := List.Forall_inv_tail F. rewrite IH // andbT.
    apply/negP => I. apply: N. elim: l0 F1 I {IH U F} => [|q l0 IH] //= F1. rewrite inE => /orP [/eqP E|I].
    - left. have B := Znumtheory.prime_ge_2 p F0. have C := Znumtheory.prime_ge_2 q (List.Forall_inv F1). Lia.lia.
    - right. apply: IH => //. exact: List.Forall_inv_tail F1. }
  rewrite A1 totient_prod //. clear NE U A1 A2 A3. elim: F => [|p l0 P F IH] //=. rewrite IH -multE Nat2Z.inj_mul. congr Z.mul.
  have B := Znumtheory.prime_ge_2 p P. Lia.lia.
Qed.
(** With a repeated prime it is not the totient: for 3*3 it returns 4 while 6 numbers below 9 are coprime to 9. *)
Theorem C39_euler_repeated_refuted : euler_function [:: 3%Z; 3%Z] = Some 4%Z /\ totient_spec 9 = 6.
Proof. by []. Qed.
Theorem C39_euler_example : euler_function [:: 3%Z; 5%Z; 7%Z] = Some 48%Z /\ totient_spec 105 = 48.
Proof. by []. Qed.
