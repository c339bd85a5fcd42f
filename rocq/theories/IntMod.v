(** IntMod.v -- common/int.go and common/slice.go.

    Pointers are assumed non-nil except where an [option] shows.  [math/big] is modelled by its documented
    meaning: Mod is the Euclidean modulus (0 <= r < |m|, panics for m = 0), Div the Euclidean quotient. *)
From Coq Require Import Znumtheory.
From Verif Require Import Base BigInt NumTh.

(** math/big Int.Mod *)
Definition big_mod (x m : Z) : outcome Z := if m =? 0 then Panic else Ret (x mod Z.abs m).
(** math/big Int.Div: the quotient of Euclidean division *)
Definition big_div (x y : Z) : outcome Z := if y =? 0 then Panic else Ret (Z.sgn y * (x / Z.abs y)).

(** int.go 26-30, 32-36, 38-42, 44-48 *)
Definition mi_add (m x y : Z) : outcome Z := big_mod (x + y) m.
Definition mi_sub (m x y : Z) : outcome Z := big_mod (x - y) m.
Definition mi_div (m x y : Z) : outcome Z := let! q := big_div x y in big_mod q m.
Definition mi_mul (m x y : Z) : outcome Z := big_mod (x * y) m.
(** int.go 50-52: big.Exp; modulus 0 means no reduction; [None] is the nil result for a negative exponent of a
    non-unit.  (x < 0 with a negative exponent is outside the model: no caller does that.) *)
Definition mi_exp (m x y : Z) : option Z :=
  if m =? 0 then Some (if y <=? 0 then 1 else x ^ y) else expm x y (Z.abs m).
(** int.go 54-56: big.ModInverse for a non-zero modulus *)
Definition mi_inv (m g : Z) : option Z := invm g (Z.abs m).
(** int.go 62-67 *)
Definition append_big (common : bytes) (x : Z) : bytes := common ++ to_be x.

(** slice.go 13-22: a nil integer stays a nil slice; both nil and empty slices are [] here *)
Definition big_ints_to_bytes (l : list (option Z)) : list bytes :=
  map (fun o => match o with Some z => to_be z | None => [] end) l.
(** slice.go 24-30 *)
Definition multi_bytes_to_ints (l : list bytes) : list Z := map of_be l.
(** slice.go 33-35, 38-53 *)
Definition non_empty_bytes (b : bytes) : bool := match b with [] => false | _ => true end.
Definition non_empty_multi (l : list bytes) (expect : option Z) : bool :=
  match l with
  | [] => false
  | _ => match expect with
         | Some e => if e =? Z.of_nat (length l) then forallb non_empty_bytes l else false
         | None => forallb non_empty_bytes l
         end
  end.
(** slice.go 57-65: prepend a zero byte length - len times *)
Fixpoint pad_loop (n : nat) (src : bytes) : bytes :=
  match n with O => src | S n => pad_loop n (zb 0 :: src) end.
Definition pad_to_length (src : bytes) (len : Z) : bytes :=
  if Z.of_nat (length src) <? len then pad_loop (Z.to_nat (len - Z.of_nat (length src))) src else src.

(** ** C44 *)
Section C44.
  Variable m : Z.
  Hypothesis M : m <> 0.
  Lemma big_mod_spec x r : big_mod x m = Ret r <-> 0 <= r < Z.abs m /\ (m | r - x).
  Proof.
    unfold big_mod. destruct (Z.eqb_spec m 0); [contradiction|]. assert (P : 0 < Z.abs m) by lia.
    pose proof (Z.mod_pos_bound x (Z.abs m) P) as B. assert (D : (m | x mod Z.abs m - x)).
    { apply Z.divide_abs_l. exists (- (x / Z.abs m)). rewrite (Z.mod_eq x (Z.abs m)) by lia. ring. }
    split; [intro E; injection E as <-; auto|]. intros [R D']. f_equal. apply (cong_small (Z.abs m)); auto.
    unfold cong. apply Z.divide_abs_l. replace (x mod Z.abs m - r) with (x mod Z.abs m - x - (r - x)) by ring. apply Z.divide_sub_r; assumption.
  Qed.
  (** Each operation returns the one number in [0,|m|) congruent to the exact result. *)
  Theorem C44_add x y r : mi_add m x y = Ret r <-> 0 <= r < Z.abs m /\ (m | r - (x + y)).
  Proof. apply big_mod_spec. Qed.
  Theorem C44_sub x y r : mi_sub m x y = Ret r <-> 0 <= r < Z.abs m /\ (m | r - (x - y)).
  Proof. apply big_mod_spec. Qed.
  Theorem C44_mul x y r : mi_mul m x y = Ret r <-> 0 <= r < Z.abs m /\ (m | r - x * y).
  Proof. apply big_mod_spec. Qed.
  (** Div is the Euclidean quotient, reduced: not division modulo m. *)
  Theorem C44_div x y r : y <> 0 -> mi_div m x y = Ret r <->
    0 <= r < Z.abs m /\ exists q, (m | r - q) /\ 0 <= x - y * q < Z.abs y.
  Proof.
    intro Y. unfold mi_div, big_div. destruct (Z.eqb_spec y 0); [contradiction|]. cbn [obind]. rewrite big_mod_spec.
    pose proof (Z.mod_pos_bound x (Z.abs y) ltac:(lia)) as B. rewrite (Z.mod_eq x (Z.abs y)) in B by lia.
    assert (A : Z.abs y = Z.sgn y * y) by (destruct (Z.sgn_spec y) as [[? ->]|[[? ->]|[? ->]]]; lia).
    assert (Q : 0 <= x - y * (Z.sgn y * (x / Z.abs y)) < Z.abs y) by (replace (y * (Z.sgn y * (x / Z.abs y))) with (Z.abs y * (x / Z.abs y)) by (rewrite A at 1; ring); exact B).
    split; intros [R D]; (split; [exact R|]).
    - eauto.
    - destruct D as (q & D & E). replace (Z.sgn y * (x / Z.abs y)) with q; [exact D|].
      set (q' := Z.sgn y * (x / Z.abs y)) in *. clearbody q'. clear B A D R. assert (- Z.abs y < y * (q' - q) < Z.abs y) by lia.
      assert (Z.abs (y * (q' - q)) < Z.abs y) by lia. rewrite Z.abs_mul in *. nia.
  Qed.
  (** Exp is the power of the base, for a negative exponent of its inverse; nil exactly when that does not exist. *)
  Theorem C44_exp_nonneg x y : 0 <= y -> exists r, mi_exp m x y = Some r /\ 0 <= r < Z.abs m /\ (m | r - x ^ y).
  Proof.
    intro Y. unfold mi_exp. destruct (Z.eqb_spec m 0); [contradiction|]. rewrite expm_nonneg by lia. eexists. split; [reflexivity|].
    split; [apply Z.mod_pos_bound; lia|]. apply Z.divide_abs_l. apply (cong_mod (Z.abs m)). lia.
  Qed.
  Theorem C44_exp_neg x y : 0 <= x -> y < 0 ->
    match mi_exp m x y with Some r => 0 <= r < Z.abs m /\ (m | r * x ^ (- y) - 1) | None => Z.gcd x m <> 1 end.
  Proof.
    intros _ Y. unfold mi_exp. destruct (Z.eqb_spec m 0); [contradiction|]. destruct (expm x y (Z.abs m)) as [r|] eqn:E.
    - split; [apply (expm_range x y); [lia|exact E]|]. apply Z.divide_abs_l. pose proof (expm_char x y (Z.abs m) r ltac:(lia) E (- y) ltac:(lia) ltac:(lia)) as C.
      replace (y + - y) with 0 in C by ring. exact C.
    - apply expm_none in E; [|lia]. rewrite Z.gcd_abs_r in E. tauto.
  Qed.
  Theorem C44_inverse g : match mi_inv m g with Some r => 0 <= r < Z.abs m /\ (m | g * r - 1) | None => Z.gcd g m <> 1 end.
  Proof.
    unfold mi_inv. pose proof (invm_spec g (Z.abs m) ltac:(lia)) as S. destruct (invm g (Z.abs m)) as [r|].
    - destruct S as (_ & R & C). split; [exact R|]. apply Z.divide_abs_l. apply C.
    - rewrite Z.gcd_abs_r in S. exact S.
  Qed.
  (** no operation panics for a non-zero modulus (and, for Div, a non-zero divisor) *)
  Theorem C44_total x y : mi_add m x y <> Panic /\ mi_sub m x y <> Panic /\ mi_mul m x y <> Panic /\ (y <> 0 -> mi_div m x y <> Panic).
  Proof. unfold mi_add, mi_sub, mi_mul, mi_div, big_div, big_mod. destruct (Z.eqb_spec m 0); [contradiction|]. repeat split; try discriminate. intro Y. destruct (Z.eqb_spec y 0); [contradiction|]. discriminate. Qed.
End C44.
Theorem C44_zero_modulus x y : mi_add 0 x y = Panic /\ mi_sub 0 x y = Panic /\ mi_mul 0 x y = Panic /\ mi_exp 0 x y = Some (if y <=? 0 then 1 else x ^ y).
Proof. repeat split. Qed.
(** Div does not undo Mul *)
Theorem C44_div_not_modular_refuted : exists m x y r, Z.gcd y m = 1 /\ mi_div m x y = Ret r /\ mi_mul m r y <> Ret x /\ 0 <= x < m.
Proof. exists 7, 3, 2, 1. split; [reflexivity|]. split; [reflexivity|]. split; [discriminate|lia]. Qed.
Theorem C44_example : mi_sub 7 3 5 = Ret 5 /\ mi_mul (-7) (-3) 5 = Ret 6 /\ mi_div 7 (-9) 4 = Ret 4 /\ mi_exp 7 3 (-2) = Some 4 /\ mi_inv 7 (-3) = Some 2 /\ mi_inv 6 3 = None.
Proof. repeat split. Qed.

(** ** C46: integers and byte slices *)
Theorem C46_ints_round_trip l : Forall (fun z => 0 <= z) l -> multi_bytes_to_ints (big_ints_to_bytes (map Some l)) = l.
Proof.
  intro F. unfold multi_bytes_to_ints, big_ints_to_bytes. rewrite !map_map. rewrite <- (map_id l) at 2. apply map_ext_in.
  intros z I. rewrite Forall_forall in F. apply of_be_to_be_nonneg. auto.
Qed.
(** the other way only leading zero bytes are lost *)
Theorem C46_bytes_round_trip l : big_ints_to_bytes (map Some (multi_bytes_to_ints l)) = map strip0 l.
Proof. unfold multi_bytes_to_ints, big_ints_to_bytes. rewrite !map_map. apply map_ext. intro b. apply to_be_of_be. Qed.
Theorem C46_lossy_refuted : (exists l, multi_bytes_to_ints (big_ints_to_bytes (map Some l)) <> l) /\ (exists l, big_ints_to_bytes (map Some (multi_bytes_to_ints l)) <> l) /\
  multi_bytes_to_ints (big_ints_to_bytes [None]) = [0].
Proof. split; [exists [-1]; discriminate|]. split; [exists [[zb 0]]; discriminate|reflexivity]. Qed.
Theorem C46_non_empty_multi l e : non_empty_multi l e = true <->
  l <> [] /\ (forall n, e = Some n -> n = Z.of_nat (length l)) /\ Forall (fun b => b <> []) l.
Proof.
  assert (B : forallb non_empty_bytes l = true <-> Forall (fun b : bytes => b <> []) l).
  { rewrite forallb_forall, Forall_forall. split; intros F b I; specialize (F b I); destruct b; (discriminate || reflexivity || congruence). }
  unfold non_empty_multi. destruct l as [|b l]; [split; [discriminate|intros [N _]; congruence]|].
  destruct e as [n|]; [destruct (Z.eqb_spec n (Z.of_nat (length (b :: l)))) as [E|E]|].
  - rewrite B. split; [intro F; split; [discriminate|]; split; [intros k K; congruence|exact F]|tauto].
  - split; [discriminate|]. intros (_ & F & _). destruct E. auto.
  - rewrite B. split; [intro F; split; [discriminate|]; split; [intros k K; discriminate|exact F]|tauto].
Qed.
Lemma pad_loop_spec n src : pad_loop n src = repeat (zb 0) n ++ src.
Proof.
  revert src. induction n as [|n IH]; intro src; [reflexivity|]. cbn [pad_loop]. rewrite IH.
  change (zb 0 :: src) with ([zb 0] ++ src). rewrite app_assoc. f_equal. rewrite <- repeat_cons. reflexivity.
Qed.
(** padding puts zero bytes in front up to the length, keeps the value, and never truncates *)
Theorem C46_pad src len : pad_to_length src len = repeat (zb 0) (Z.to_nat (len - Z.of_nat (length src))) ++ src.
Proof.
  unfold pad_to_length. destruct (Z.ltb_spec (Z.of_nat (length src)) len); [apply pad_loop_spec|].
  replace (Z.to_nat (len - Z.of_nat (length src))) with 0%nat by lia. reflexivity.
Qed.
Theorem C46_pad_value src len : of_be (pad_to_length src len) = of_be src /\ Z.of_nat (length (pad_to_length src len)) = Z.max len (Z.of_nat (length src)).
Proof.
  rewrite C46_pad. split; [|rewrite app_length, repeat_length; lia].
  apply of_be_zeros.
Qed.
Theorem C46_append common x : append_big common x = common ++ to_be x.
Proof. reflexivity. Qed.
Theorem C46_example : pad_to_length [zb 7] 3 = [zb 0; zb 0; zb 7] /\ non_empty_multi [[zb 1]; [zb 2]] (Some 2) = true /\ non_empty_multi [[zb 1]; []] None = false /\ non_empty_multi [[zb 1]] (Some 2) = false.
Proof. repeat split. Qed.
