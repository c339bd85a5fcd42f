(** AliceUtils.v -- crypto/alice/utils/utils.go: bit, byte and number helpers, and C39.
    A uint8 is a [byte]; errors are [None] (their texts are not modelled). *)
From Coq Require Import Znumtheory.
From Verif Require Import Base BigInt Xor Keygen RangeProofs.

(** utils.go 346-360 BytesToBits, inner loop: LeadingZeros8(d) == 0 iff d >= 128; then d = d << 1 in uint8 *)
Fixpoint byte_bits (n : nat) (d : Z) : bytes :=
  match n with O => [] | S n => (if 128 <=? d then zb 1 else zb 0) :: byte_bits n ((2 * d) mod 256) end.
Definition bytes_to_bits (data : bytes) : bytes := flat_map (fun d => byte_bits 8 (bz d)) data.

(** utils.go 371-388 BitsToBytes: temp[7] + sum of temp[j] << (7-j), all in uint8 (each shift and sum wraps) *)
Definition pack8 (t : bytes) : byte :=
  zb (fold_left (fun acc j => (acc + (bz (nth j t x00) * 2 ^ (7 - Z.of_nat j)) mod 256) mod 256) [6; 5; 4; 3; 2; 1; 0]%nat (bz (nth 7 t x00))).
Definition bits_to_bytes (input : bytes) : option bytes :=
  if (length input mod 8 =? 0)%nat
  then Some (map (fun i => pack8 (firstn 8 (skipn (8 * i) input))) (seq 0 (length input / 8)))
  else None.

(** utils.go 390-397 ReverseByte: result[i] = s[upBd-i] *)
Definition reverse_byte (s : bytes) : bytes := map (fun i => nth (length s - 1 - i) s x00) (seq 0 (length s)).
(** utils.go 335-344 BinaryMul, 362-368 ScalarMul *)
Definition binary_mul (c : byte) (input : bytes) : bytes := if bz c =? 1 then input else repeat (zb 0) (length input).
Definition scalar_mul (bit : byte) (input : bytes) : bytes := map (fun b => zb (Z.land (bz bit) (bz b))) input.

(** utils.go 74-79, 82-87, 90-99 *)
Definition ensure_field_order (o : Z) : bool := negb (o <=? 2).
Definition u32 (x : Z) : Z := x mod 2 ^ 32.
Definition ensure_rank (rank threshold : Z) : bool := negb (threshold <=? u32 (rank + 1)).
Definition ensure_threshold (threshold n : Z) : bool := if n <? threshold then false else negb (threshold <? 2).
(** utils.go 155-157 Gcd; math/big GCD of any signs is the non-negative gcd *)
Definition u_gcd (a b : Z) : Z := Z.gcd a b.
(** utils.go 161-172 Lcm *)
Definition u_lcm (a b : Z) : option Z := if a <=? 0 then None else if b <=? 0 then None else Some (a / u_gcd a b * b).
(** utils.go 176-189 EulerFunction *)
Fixpoint euler_loop (l : list Z) (acc : Z) : option Z :=
  match l with [] => Some acc | p :: l => if p <=? 1 then None else euler_loop l (acc * (p - 1)) end.
Definition euler_function (l : list Z) : option Z := match l with [] => None | _ => euler_loop l 1 end.

(** ** C39 *)
Definition bitval (d : byte) (j : nat) : byte := if Z.testbit (bz d) (7 - Z.of_nat j) then zb 1 else zb 0.
Lemma byte_bits_spec d : byte_bits 8 (bz d) = map (bitval d) (seq 0 8).
Proof. destruct d; vm_compute; reflexivity. Qed.
Lemma bytes_to_bits_length data : length (bytes_to_bits data) = (8 * length data)%nat.
Proof. induction data as [|d data IH]; [reflexivity|]. unfold bytes_to_bits in *. cbn [flat_map]. rewrite app_length, IH, byte_bits_spec, map_length, seq_length. cbn [length]. lia. Qed.
(** Bit 8i+j of the output is bit 7-j of byte i (most significant first). *)
Theorem C39_bytes_to_bits data i j d : nth_error data i = Some d -> (j < 8)%nat ->
  nth_error (bytes_to_bits data) (8 * i + j) = Some (if Z.testbit (bz d) (7 - Z.of_nat j) then zb 1 else zb 0).
Proof.
  revert i. induction data as [|e data IH]; intros i E J; [destruct i; discriminate|].
  unfold bytes_to_bits. cbn [flat_map]. rewrite byte_bits_spec. destruct i as [|i].
  - injection E as <-. rewrite nth_error_app1 by (rewrite map_length, seq_length; lia). rewrite nth_error_map. cbn [Nat.mul Nat.add].
    destruct j as [|[|[|[|[|[|[|[|j]]]]]]]]; try lia; reflexivity.
  - rewrite nth_error_app2 by (rewrite map_length, seq_length; lia). rewrite map_length, seq_length. replace (8 * S i + j - 8)%nat with (8 * i + j)%nat by lia. apply IH; assumption.
Qed.
Theorem C39_bytes_to_bits_length data : length (bytes_to_bits data) = (8 * length data)%nat.
Proof. apply bytes_to_bits_length. Qed.

Lemma pack8_bits d : pack8 (map (bitval d) (seq 0 8)) = d.
Proof. destruct d; vm_compute; reflexivity. Qed.
Lemma chunk_bits data i d : nth_error data i = Some d -> firstn 8 (skipn (8 * i) (bytes_to_bits data)) = map (bitval d) (seq 0 8).
Proof.
  revert i. induction data as [|e data IH]; intros i E; [destruct i; discriminate|]. unfold bytes_to_bits. cbn [flat_map]. rewrite byte_bits_spec. destruct i as [|i].
  - injection E as <-. reflexivity.
  - rewrite skipn_app, map_length, seq_length. rewrite skipn_all2 by (rewrite map_length, seq_length; lia). cbn [app]. replace (8 * S i - 8)%nat with (8 * i)%nat by lia. apply IH, E.
Qed.
(** Packing undoes unpacking. *)
Theorem C39_bits_round_trip data : bits_to_bytes (bytes_to_bits data) = Some data.
Proof.
  unfold bits_to_bytes. rewrite bytes_to_bits_length. replace ((8 * length data) mod 8)%nat with 0%nat by (rewrite Nat.mul_comm; symmetry; apply Nat.mod_mul; lia).
  cbn [Nat.eqb]. f_equal. rewrite (Nat.mul_comm 8 (length data)), Nat.div_mul by lia.
  apply (nth_ext _ _ x00 x00); [rewrite map_length, seq_length; reflexivity|]. intros i L. rewrite map_length, seq_length in L.
  assert (E : nth_error data i = Some (nth i data x00)) by (apply nth_error_nth'; exact L).
  apply nth_error_nth. rewrite nth_error_map. replace (nth_error (seq 0 (length data)) i) with (Some i).
  - cbn [option_map]. rewrite (chunk_bits data i _ E), pack8_bits. reflexivity.
  - rewrite (nth_error_nth' _ 0%nat) by (rewrite seq_length; exact L). rewrite seq_nth by exact L. reflexivity.
Qed.
(** Unpacking undoes packing, for lists of bits; other lengths are an error. *)
Lemma skipn_add {A} (l : list A) x y : skipn x (skipn y l) = skipn (x + y) l.
Proof. revert l. induction y as [|y IH]; intro l; [rewrite Nat.add_0_r; reflexivity|]. replace (x + S y)%nat with (S (x + y)) by lia. destruct l; [destruct x; reflexivity|]. cbn [skipn]. apply IH. Qed.
Lemma pack_unpack8 t : length t = 8%nat -> Forall (fun b => b = zb 0 \/ b = zb 1) t -> byte_bits 8 (bz (pack8 t)) = t.
Proof.
  intros L F. do 8 (destruct t as [|? t]; [discriminate L|]). destruct t; [|discriminate L]. clear L.
  repeat match goal with Q : Forall _ (_ :: _) |- _ => inversion Q as [|? ? [?|?] ?]; subst; clear Q end; vm_compute; reflexivity.
Qed.
Theorem C39_bits_round_trip_back input : Forall (fun b => b = zb 0 \/ b = zb 1) input -> (length input mod 8 = 0)%nat ->
  exists data, bits_to_bytes input = Some data /\ bytes_to_bits data = input.
Proof.
  intros F M. unfold bits_to_bytes. rewrite M. cbn [Nat.eqb]. eexists. split; [reflexivity|].
  assert (N : (length input = 8 * (length input / 8))%nat) by (pose proof (Nat.div_mod (length input) 8); lia).
  remember (length input / 8)%nat as n eqn:En. clear En M. revert input F N. induction n as [|n IH]; intros input F N.
  - destruct input; [reflexivity|cbn in N; lia].
  - cbn [seq map]. unfold bytes_to_bits. cbn [flat_map]. replace (8 * 0)%nat with 0%nat by lia. cbn [skipn].
    rewrite pack_unpack8; [|rewrite firstn_length; lia|rewrite Forall_forall in *; intros b I; apply F; rewrite <- (firstn_skipn 8 input); apply in_or_app; left; exact I].
    rewrite <- seq_shift, map_map. replace (map (fun x => pack8 (firstn 8 (skipn (8 * S x) input))) (seq 0 n)) with (map (fun x => pack8 (firstn 8 (skipn (8 * x) (skipn 8 input)))) (seq 0 n)).
    2: { apply map_ext. intro x. rewrite skipn_add. replace (8 * x + 8)%nat with (8 * S x)%nat by lia. reflexivity. }
    fold (bytes_to_bits (map (fun x => pack8 (firstn 8 (skipn (8 * x) (skipn 8 input)))) (seq 0 n))). rewrite IH; [apply firstn_skipn| |rewrite skipn_length; lia].
    rewrite Forall_forall in *. intros b I. apply F. rewrite <- (firstn_skipn 8 input). apply in_or_app. right. exact I.
Qed.
Theorem C39_bits_to_bytes_error input : bits_to_bytes input = None <-> (length input mod 8 <> 0)%nat.
Proof. unfold bits_to_bytes. destruct (Nat.eqb_spec (length input mod 8) 0); split; intro Q; try discriminate; try congruence; try contradiction. Qed.
(** entries other than 0 and 1 are accepted and mixed into the byte *)
Theorem C39_non_bits_refuted : exists input data, bits_to_bytes input = Some data /\ bytes_to_bits data <> input.
Proof. exists (repeat (zb 0) 7 ++ [zb 2]), [zb 2]. split; [reflexivity|vm_compute; discriminate]. Qed.

(** ReverseByte reverses; twice is the identity. *)
Theorem C39_reverse s : reverse_byte s = rev s.
Proof.
  unfold reverse_byte. apply (nth_ext _ _ x00 x00); [rewrite map_length, seq_length, rev_length; reflexivity|]. intros i L. rewrite map_length, seq_length in L.
  rewrite (nth_indep _ x00 ((fun i => nth (length s - 1 - i) s x00) 0%nat)) by (rewrite map_length, seq_length; exact L). rewrite map_nth with (f := fun i => nth (length s - 1 - i) s x00).
  rewrite seq_nth by exact L. rewrite rev_nth by exact L. f_equal. lia.
Qed.
Theorem C39_reverse_involutive s : reverse_byte (reverse_byte s) = s.
Proof. rewrite !C39_reverse. apply rev_involutive. Qed.
(** Xor is bytewise xor, the shorter input padded with zeros; it commutes and undoes itself. *)
Theorem C39_xor a b k : length (xor a b) = Nat.max (length a) (length b) /\ bz (nth k (xor a b) x00) = Z.lxor (bz (nth k a x00)) (bz (nth k b x00)).
Proof. split; [apply xor_length|]. rewrite xor_nth. apply bxor_bz. Qed.
Theorem C39_xor_comm a b : xor a b = xor b a.
Proof.
  apply (nth_ext _ _ x00 x00); [rewrite !xor_length; apply Nat.max_comm|]. intros k _. rewrite !xor_nth. apply bxor_comm.
Qed.
Theorem C39_xor_involutive a b : (length b <= length a)%nat -> xor (xor a b) b = a.
Proof.
  intro L. apply (nth_ext _ _ x00 x00); [rewrite !xor_length; lia|]. intros k _. rewrite !xor_nth, bxor_assoc, bxor_self. apply bxor_0_r.
Qed.
(** Multiplication by a bit: 1 keeps, 0 clears. *)
Theorem C39_binary_mul c input : binary_mul c input = if bz c =? 1 then input else repeat (zb 0) (length input).
Proof. reflexivity. Qed.
Theorem C39_scalar_mul input : Forall (fun b => b = zb 0 \/ b = zb 1) input ->
  scalar_mul (zb 1) input = input /\ scalar_mul (zb 0) input = repeat (zb 0) (length input).
Proof.
  intro F. split.
  - unfold scalar_mul. rewrite <- (map_id input) at 2. apply map_ext_in. intros b I. rewrite Forall_forall in F. destruct (F b I) as [->| ->]; reflexivity.
  - clear F. unfold scalar_mul. induction input as [|b input IH]; [reflexivity|]. cbn [map length repeat]. rewrite IH. f_equal.
Qed.
(** Bounds checks *)
Theorem C39_field_order o : ensure_field_order o = true <-> 2 < o.
Proof. unfold ensure_field_order. destruct (Z.leb_spec o 2); cbn; split; intro; try lia; try discriminate; reflexivity. Qed.
Theorem C39_rank rank threshold : 0 <= rank < 2 ^ 32 - 1 -> ensure_rank rank threshold = true <-> rank + 1 < threshold.
Proof. intro R. unfold ensure_rank, u32. rewrite Z.mod_small by lia. destruct (Z.leb_spec threshold (rank + 1)); cbn; split; intro; try lia; try discriminate; reflexivity. Qed.
(** the largest uint32 rank passes every threshold *)
Theorem C39_rank_overflow_refuted threshold : 0 < threshold < 2 ^ 32 -> ensure_rank (2 ^ 32 - 1) threshold = true.
Proof. intro T. unfold ensure_rank, u32. replace ((2 ^ 32 - 1 + 1) mod 2 ^ 32) with 0 by reflexivity. destruct (Z.leb_spec threshold 0); [lia|reflexivity]. Qed.
Theorem C39_threshold t n : ensure_threshold t n = true <-> 2 <= t <= n.
Proof. unfold ensure_threshold. destruct (Z.ltb_spec n t); [split; [discriminate|lia]|]. destruct (Z.ltb_spec t 2); cbn; split; intro; try lia; try discriminate; reflexivity. Qed.
Theorem C39_in_range x floor ceil : in_range x floor ceil = true <-> floor <= x < ceil.
Proof. unfold in_range. destruct (Z.ltb_spec floor ceil); destruct (Z.leb_spec floor x); destruct (Z.ltb_spec x ceil); cbn; split; intro; try lia; try discriminate; reflexivity. Qed.
Theorem C39_gcd a b : 0 <= u_gcd a b /\ (u_gcd a b | a) /\ (u_gcd a b | b) /\ forall d, (d | a) -> (d | b) -> (d | u_gcd a b).
Proof. split; [apply Z.gcd_nonneg|]. split; [apply Z.gcd_divide_l|]. split; [apply Z.gcd_divide_r|]. intros d. apply Z.gcd_greatest. Qed.
Theorem C39_lcm a b : (0 < a /\ 0 < b -> exists l, u_lcm a b = Some l /\ 0 < l /\ (a | l) /\ (b | l) /\ forall m, (a | m) -> (b | m) -> (l | m)) /\
  (a <= 0 \/ b <= 0 -> u_lcm a b = None).
Proof.
  split.
  - intros [A B]. unfold u_lcm, u_gcd. destruct (Z.leb_spec a 0); [lia|]. destruct (Z.leb_spec b 0); [lia|]. exists (Z.lcm a b).
    assert (G : 0 < Z.gcd a b) by (pose proof (Z.gcd_nonneg a b); destruct (Z.eq_dec (Z.gcd a b) 0) as [Q|Q]; [apply Z.gcd_eq_0_l in Q; lia|lia]).
    assert (L : a / Z.gcd a b * b = Z.lcm a b).
    { unfold Z.lcm. destruct (Z.gcd_divide_r a b) as [k K]. destruct (Z.gcd_divide_l a b) as [j J].
      assert (a / Z.gcd a b = j) by (rewrite J at 1; apply Z.div_mul; lia). assert (b / Z.gcd a b = k) by (rewrite K at 1; apply Z.div_mul; lia).
      rewrite H1, H2. rewrite Z.abs_eq; [|assert (0 < k) by nia; nia]. rewrite K at 1. rewrite J at 2. ring. }
    rewrite L. split; [reflexivity|]. assert (0 <= Z.lcm a b) by apply Z.lcm_nonneg. assert (Z.lcm a b <> 0) by (intro Q; apply Z.lcm_eq_0 in Q; lia).
    split; [lia|]. split; [apply Z.divide_lcm_l|]. split; [apply Z.divide_lcm_r|]. intros m. apply Z.lcm_least.
  - intro Q. unfold u_lcm. destruct (Z.leb_spec a 0); [reflexivity|]. destruct (Z.leb_spec b 0); [reflexivity|lia].
Qed.
Theorem C39_euler_product l : euler_function l = if (match l with [] => false | _ => forallb (fun p => 1 <? p) l end) then Some (fold_right (fun p a => (p - 1) * a) 1 l) else None.
Proof.
  assert (G : forall l acc, euler_loop l acc = if forallb (fun p => 1 <? p) l then Some (acc * fold_right (fun p a => (p - 1) * a) 1 l) else None).
  { induction l0 as [|p l0 IH]; intro acc; cbn [euler_loop forallb fold_right]; [f_equal; ring|]. destruct (Z.leb_spec p 1); destruct (Z.ltb_spec 1 p); try lia; [reflexivity|].
    cbn [andb]. rewrite IH. destruct (forallb _ _); [f_equal; ring|reflexivity]. }
  destruct l as [|p l]; [reflexivity|]. unfold euler_function. rewrite G. destruct (forallb _ _); [|reflexivity]. f_equal. ring.
Qed.
Theorem C39_example : bytes_to_bits [zb 165] = map zb [1; 0; 1; 0; 0; 1; 0; 1] /\ bits_to_bytes (map zb [1; 0; 1; 0; 0; 1; 0; 1]) = Some [zb 165] /\
  u_lcm 12 18 = Some 36 /\ euler_function [5; 7] = Some 24 /\ euler_function [5; 1] = None /\ reverse_byte (str "abc") = str "cba" /\ xor (str "ab") [zb 1] = [zb 96; zb 98].
Proof. repeat split; vm_compute; reflexivity. Qed.
