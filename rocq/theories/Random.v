(** Random.v -- common/random.go, the sampling helpers of crypto/alice/utils/utils.go and crypto/utils.go.

    The random source is a finite list of bytes: reading past its end is the reader's error.  Every terminating
    run reads finitely many bytes, so ranging over all lists ranges over all runs; a loop that never ends is a
    relation with no result.  crypto/rand.Int is modelled from its documented algorithm (mask the first byte,
    retry until below the bound); crypto/rand.Prime and ProbablyPrime are arguments. *)
From Verif Require Import Base BigInt RangeProofs.
From Coq Require Import Znumtheory.

(** io.ReadFull into a slice of k bytes *)
Definition read_full (k : nat) (s : bytes) : option (bytes * bytes) :=
  if (k <=? length s)%nat then Some (firstn k s, skipn k s) else None.

(** bytes[0] &= uint8(int(1<<b) - 1) *)
Definition mask0 (b : Z) (bs : bytes) : bytes :=
  match bs with [] => [] | x :: t => zb (Z.land (bz x) (2 ^ b - 1)) :: t end.
(** b := bitLen % 8, 8 if that is 0 *)
Definition top_bits (bl : Z) : Z := if bl mod 8 =? 0 then 8 else bl mod 8.

(** crypto/rand.Int (Go standard library): the retry loop over the stream *)
Fixpoint int_loop (fuel : nat) (max bl : Z) (s : bytes) : option (Z * bytes) :=
  match fuel with
  | O => None
  | S f => match read_full (Z.to_nat ((bl + 7) / 8)) s with
           | None => None
           | Some (bs, s') => let n := of_be (mask0 (top_bits bl) bs) in
                              if n <? max then Some (n, s') else int_loop f max bl s'
           end
  end.
Definition rand_int (max : Z) (s : bytes) : outcome (option (Z * bytes)) :=
  if max <=? 0 then Panic else
  let bl := bitlen (max - 1) in
  if bl =? 0 then Ret (Some (0, s)) else Ret (int_loop (S (length s)) max bl s).

(** common/random.go 22-37 MustGetRandomInt *)
Definition must_int (bits : Z) (s : bytes) : outcome (Z * bytes) :=
  if (bits <=? 0) || (5000 <? bits) then Panic else
  match rand_int (2 ^ bits - 1) s with
  | Ret (Some r) => Ret r
  | _ => Panic
  end.

(** a Go loop "for { try = draw(); if ok(try) { break } }": [rep draw ok s o] is a finished run *)
Inductive rep {A} (draw : bytes -> outcome (A * bytes)) (ok : A -> bool) : bytes -> outcome (A * bytes) -> Prop :=
| rep_done s a s' : draw s = Ret (a, s') -> ok a = true -> rep draw ok s (Ret (a, s'))
| rep_again s a s' o : draw s = Ret (a, s') -> ok a = false -> rep draw ok s' o -> rep draw ok s o
| rep_panic s : draw s = Panic -> rep draw ok s Panic.

(** what a sampling function returned: nil, or an integer and the rest of the stream; or a panic *)
Definition drawn := outcome (option (Z * bytes)).
Definition some_of (o : outcome (Z * bytes)) : drawn := match o with Ret r => Ret (Some r) | Panic => Panic end.

(** random.go 39-51 GetRandomPositiveInt *)
Inductive pos_int : option Z -> bytes -> drawn -> Prop :=
| pos_nil s : pos_int None s (Ret None)
| pos_bad n s : n <= 0 -> pos_int (Some n) s (Ret None)
| pos_run n s o : 0 < n -> rep (must_int (bitlen n)) (fun v => v <? n) s o -> pos_int (Some n) s (some_of o).

(** random.go 87-94 IsNumberInMultiplicativeGroup *)
Definition in_group (n v : option Z) : bool :=
  match n, v with
  | Some n, Some v => (0 <? n) && ((v <? n) && (1 <=? v) && (Z.gcd v n =? 1))
  | _, _ => false
  end.

(** random.go 72-85 GetRandomPositiveRelativelyPrimeInt *)
Inductive coprime_int : option Z -> bytes -> drawn -> Prop :=
| cop_nil s : coprime_int None s (Ret None)
| cop_bad n s : n <= 0 -> coprime_int (Some n) s (Ret None)
| cop_run n s o : 0 < n -> rep (must_int (bitlen n)) (fun v => in_group (Some n) (Some v)) s o -> coprime_int (Some n) s (some_of o).

(** random.go 53-70 GetRandomPrimeInt: [pr] is what crypto/rand.Prime returned (None is an error),
    [pp] is ProbablyPrime(30) *)
Inductive prime_int (pp : Z -> bool) (pr : option Z) : Z -> bytes -> drawn -> Prop :=
| pri_bad bits s : bits <= 0 -> prime_int pp pr bits s (Ret None)
| pri_std bits s p : 0 < bits -> pr = Some p -> p <> 0 -> prime_int pp pr bits s (Ret (Some (p, s)))
| pri_fallback bits s o : 0 < bits -> pr = None \/ pr = Some 0 -> rep (must_int bits) pp s o -> prime_int pp pr bits s (some_of o).

(** random.go 100-104 GetRandomGeneratorOfTheQuadraticResidue: squaring a nil *big.Int panics *)
Inductive qr_gen : option Z -> bytes -> outcome (Z * bytes) -> Prop :=
| qr_nil n s : coprime_int n s (Ret None) -> qr_gen n s Panic
| qr_panic n s : coprime_int n s Panic -> qr_gen n s Panic
| qr_ret n s f s' : coprime_int (Some n) s (Ret (Some (f, s'))) -> qr_gen (Some n) s (Ret ((f * f) mod n, s')).

(** crypto/utils.go 17-28 GenerateNTildei: [Ret None] is the error return *)
Inductive ntildei (pp : Z -> bool) : option Z -> option Z -> bytes -> outcome (option (Z * Z * Z)) -> Prop :=
| nt_nil a b s : a = None \/ b = None -> ntildei pp a b s (Ret None)
| nt_bad p q s : pp p = false \/ pp q = false -> ntildei pp (Some p) (Some q) s (Ret None)
| nt_panic1 p q s : pp p = true -> pp q = true -> qr_gen (Some (p * q)) s Panic -> ntildei pp (Some p) (Some q) s Panic
| nt_panic2 p q s h s' : pp p = true -> pp q = true -> qr_gen (Some (p * q)) s (Ret (h, s')) -> qr_gen (Some (p * q)) s' Panic ->
    ntildei pp (Some p) (Some q) s Panic
| nt_ret p q s h1 s1 h2 s2 : pp p = true -> pp q = true -> qr_gen (Some (p * q)) s (Ret (h1, s1)) -> qr_gen (Some (p * q)) s1 (Ret (h2, s2)) ->
    ntildei pp (Some p) (Some q) s (Ret (Some (p * q, h1, h2))).

(** random.go 117-130 GetRandomBytes: [rd] is what rand.Read delivered (at most [len] bytes), None its error.
    Read, not ReadFull, is called: a short read leaves zero bytes behind. *)
Definition get_random_bytes (len : Z) (rd : option bytes) : option bytes :=
  if len <=? 0 then None else
  match rd with
  | None => None
  | Some c => let c := firstn (Z.to_nat len) c in Some (c ++ repeat (zb 0) (Z.to_nat len - length c))
  end.

(** utils.go 104-109 RandomInt; None is an error *)
Definition u_random_int (n : Z) (s : bytes) : option (Z * bytes) :=
  if n <=? 0 then None else match rand_int n s with Ret r => r | Panic => None end.
(** utils.go 112-118 RandomPositiveInt *)
Definition u_random_pos (n : Z) (s : bytes) : option (Z * bytes) :=
  match u_random_int (n - 1) s with None => None | Some (x, s') => Some (x + 1, s') end.
(** utils.go 126-147 RandomCoprimeInt: at most maxGenPrimeInt = 100 tries *)
Fixpoint u_coprime_loop (k : nat) (n : Z) (s : bytes) : option (Z * bytes) :=
  match k with
  | O => None
  | S k => match u_random_int n s with
           | None => None
           | Some (r, s') => if r <=? 1 then u_coprime_loop k n s'
                             else if Z.gcd r n =? 1 then Some (r, s') else u_coprime_loop k n s'
           end
  end.
Definition u_random_coprime (n : Z) (s : bytes) : option (Z * bytes) :=
  if n <=? 2 then None else u_coprime_loop 100 n s.
(** utils.go 215-225 GenRandomBytes: crypto/rand.Read fills the whole slice or errs *)
Definition u_random_bytes (size : Z) (s : bytes) : option (bytes * bytes) :=
  if size <? 1 then None else read_full (Z.to_nat size) s.
(** utils.go 296-304 RandomAbsoluteRangeInt *)
Definition u_random_abs (n : Z) (s : bytes) : option (Z * bytes) :=
  match u_random_pos (2 * (n + 1)) s with None => None | Some (x, s') => Some (x - n, s') end.
(** utils.go 250-267 HashProtosRejectSampling: at most maxGenNHashValue = 100 salts of 32 bytes *)
Fixpoint u_reject_loop (B : bytes -> bytes) (k : nat) (order : Z) (parts : list bytes) (s : bytes) : option (Z * bytes) :=
  match k with
  | O => None
  | S k => match u_random_bytes 32 s with
           | None => None
           | Some (salt, s') => let c := of_be (hash_protos B salt parts) in
                                if in_range c 0 order then Some (c, salt) else u_reject_loop B k order parts s'
           end
  end.
Definition u_reject (B : bytes -> bytes) (order : Z) (parts : list bytes) (s : bytes) : option (Z * bytes) :=
  u_reject_loop B 100 order parts s.

(** * Lemmas *)
Lemma bitlen_pow z : 0 < z -> 2 ^ (bitlen z - 1) <= z < 2 ^ bitlen z.
Proof.
  intro H. unfold bitlen. destruct (Z.eqb_spec z 0); [lia|]. rewrite Z.abs_eq by lia.
  replace (Z.log2 z + 1 - 1) with (Z.log2 z) by lia. replace (Z.log2 z + 1) with (Z.succ (Z.log2 z)) by lia.
  apply Z.log2_spec. exact H.
Qed.
Lemma bitlen_pos z : z <> 0 -> 0 < bitlen z.
Proof. intro H. unfold bitlen. destruct (Z.eqb_spec z 0); [lia|]. pose proof (Z.log2_nonneg (Z.abs z)). lia. Qed.
Lemma bitlen_nonneg z : 0 <= bitlen z.
Proof. unfold bitlen. destruct (Z.eqb_spec z 0); [lia|]. pose proof (Z.log2_nonneg (Z.abs z)). lia. Qed.

Lemma top_bits_spec bl : 0 < bl -> 1 <= top_bits bl <= 8 /\ bl = 8 * ((bl + 7) / 8 - 1) + top_bits bl.
Proof. intro H. unfold top_bits. destruct (Z.eqb_spec (bl mod 8) 0); lia. Qed.

(** the masked bytes are the bytes taken modulo 2^bitLen *)
Lemma mask0_value bl bs : 0 < bl -> length bs = Z.to_nat ((bl + 7) / 8) ->
  of_be (mask0 (top_bits bl) bs) = of_be bs mod 2 ^ bl.
Proof.
  intros Hbl L. destruct (top_bits_spec bl Hbl) as [Hb E].
  destruct bs as [|x t]; [cbn in L; lia|]. cbn [mask0]. cbn [length] in L.
  rewrite !of_be_cons. rewrite bz_zb.
  replace (2 ^ top_bits bl - 1) with (Z.ones (top_bits bl)) by (rewrite Z.ones_equiv; lia).
  rewrite Z.land_ones by lia.
  assert (P8 : 2 ^ top_bits bl <= 256) by (change 256 with (2 ^ 8); apply Z.pow_le_mono_r; lia).
  assert (P0 : 0 < 2 ^ top_bits bl) by (apply Z.pow_pos_nonneg; lia).
  pose proof (Z.mod_pos_bound (bz x) _ P0). rewrite (Z.mod_small _ 256) by lia.
  assert (EP : 2 ^ bl = 256 ^ Z.of_nat (length t) * 2 ^ top_bits bl).
  { change 256 with (2 ^ 8). rewrite <- Z.pow_mul_r by lia. rewrite <- Z.pow_add_r by lia. f_equal. lia. }
  pose proof (of_be_range t) as Rt. pose proof (pow256_pos (length t)) as P2.
  rewrite EP. set (M := 256 ^ Z.of_nat (length t)) in *. set (T := 2 ^ top_bits bl) in *.
  symmetry. rewrite (Z.div_mod (bz x) T) at 1 by lia.
  replace ((T * (bz x / T) + bz x mod T) * M + of_be t) with ((bz x mod T) * M + of_be t + (bz x / T) * (M * T)) by ring.
  rewrite Z.mod_add by nia. apply Z.mod_small.
  clearbody M T. nia.
Qed.

Lemma read_full_spec k s bs s' : read_full k s = Some (bs, s') <-> s = bs ++ s' /\ length bs = k.
Proof.
  unfold read_full. destruct (Nat.leb_spec k (length s)).
  - split.
    + intro E. injection E as <- <-. rewrite firstn_skipn. split; [reflexivity|]. rewrite firstn_length. lia.
    + intros [-> <-]. rewrite firstn_app, Nat.sub_diag, firstn_all, skipn_app, skipn_all, Nat.sub_diag. cbn [firstn skipn]. now rewrite app_nil_r.
  - split; [discriminate|]. intros [-> <-]. rewrite app_length in H. lia.
Qed.

(** one attempt of crypto/rand.Int *)
Lemma int_loop_step fuel max bl s : 0 < bl -> (length s < fuel)%nat ->
  int_loop fuel max bl s =
  match read_full (Z.to_nat ((bl + 7) / 8)) s with
  | None => None
  | Some (bs, s') => if of_be bs mod 2 ^ bl <? max then Some (of_be bs mod 2 ^ bl, s') else int_loop (S (length s')) max bl s'
  end.
Proof.
  revert fuel. induction s as [s IH] using (well_founded_induction (well_founded_ltof _ (@length byte))).
  intros fuel Hbl Hf. destruct fuel as [|f]; [lia|].
  change (int_loop (S f) max bl s) with (match read_full (Z.to_nat ((bl + 7) / 8)) s with
           | None => None
           | Some (bs, s') => let n := of_be (mask0 (top_bits bl) bs) in
                              if n <? max then Some (n, s') else int_loop f max bl s'
           end).
  cbv zeta.
  destruct (read_full _ s) as [[bs s']|] eqn:R; [|reflexivity].
  apply read_full_spec in R. destruct R as [-> L].
  rewrite mask0_value by assumption. destruct (_ <? max); [reflexivity|].
  destruct (top_bits_spec bl Hbl) as [? ?].
  assert (Hlt : (length s' < length (bs ++ s'))%nat) by (rewrite app_length; lia).
  rewrite (IH s' Hlt f Hbl) by (rewrite app_length in Hf; lia).
  rewrite (IH s' Hlt (S (length s')) Hbl) by lia. reflexivity.
Qed.

Lemma int_loop_range max bl s v s' : 0 < bl -> int_loop (S (length s)) max bl s = Some (v, s') -> 0 <= v < max /\ exists u, s = u ++ s'.
Proof.
  intro Hbl. induction s as [s IH] using (well_founded_induction (well_founded_ltof _ (@length byte))).
  rewrite int_loop_step by lia. destruct (read_full _ s) as [[bs s1]|] eqn:R; [|discriminate].
  apply read_full_spec in R. destruct R as [-> L].
  destruct (Z.ltb_spec (of_be bs mod 2 ^ bl) max).
  - intro E. injection E as <- <-. split; [|now exists bs].
    assert (0 < 2 ^ bl) by (apply Z.pow_pos_nonneg; lia). pose proof (Z.mod_pos_bound (of_be bs) (2 ^ bl)). lia.
  - intro E. apply IH in E; [|red; rewrite app_length; destruct (top_bits_spec bl Hbl); lia].
    destruct E as [? [u ->]]. split; [assumption|]. exists (bs ++ u). now rewrite app_assoc.
Qed.

Lemma rand_int_range max s r : rand_int max s = Ret (Some r) -> 0 <= fst r < max /\ exists u, s = u ++ snd r.
Proof.
  destruct r as [v s']. unfold rand_int. destruct (Z.leb_spec max 0); [discriminate|].
  destruct (Z.eqb_spec (bitlen (max - 1)) 0) as [E|E].
  - intro H1. injection H1 as <- <-. cbn. split; [lia|now exists []].
  - intro H1. injection H1 as H1. apply int_loop_range in H1; [exact H1|].
    pose proof (bitlen_nonneg (max - 1)). lia.
Qed.

Lemma rep_result {A} draw ok s (a : A) s' : rep draw ok s (Ret (a, s')) -> ok a = true /\ exists s0, draw s0 = Ret (a, s').
Proof.
  intro H. remember (Ret (a, s')) as o eqn:E. induction H.
  - injection E as -> ->. split; [assumption|]. now exists s.
  - now apply IHrep.
  - discriminate.
Qed.
Lemma rep_det {A} draw ok s (o1 o2 : outcome (A * bytes)) : rep draw ok s o1 -> rep draw ok s o2 -> o1 = o2.
Proof.
  intro H. revert o2. induction H; intros o2 H2; inversion H2; subst; try congruence.
  match goal with X : draw s = Ret (_, _), Y : draw s = Ret (_, _) |- _ => rewrite X in Y; injection Y as <- <- end. auto.
Qed.

Lemma must_int_range bits s v s' : must_int bits s = Ret (v, s') -> 0 <= v < 2 ^ bits - 1 /\ 0 < bits <= 5000.
Proof.
  unfold must_int. destruct (Z.leb_spec bits 0); [discriminate|]. destruct (Z.ltb_spec 5000 bits); [discriminate|]. cbn [orb].
  destruct (rand_int _ s) as [[[v0 s0]|]|] eqn:E; try discriminate. intro R. injection R as -> ->.
  apply rand_int_range in E. cbn [fst snd] in E. split; [tauto|lia].
Qed.
