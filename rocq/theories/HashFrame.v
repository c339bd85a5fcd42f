(** HashFrame.v -- common/hash.go: multi-part hashing.

    The compression function itself (crypto.SHA512_256 from the Go library) is the parameter [H];
    every statement below is for an arbitrary [H]. *)
From Verif Require Import Base BigInt.

(** common/hash.go 17: hashInputDelimiter = '$' *)
Definition delim : byte := zb 36.

(** common/hash.go 33 and 43: binary.LittleEndian.PutUint64(buf, uint64(n)) *)
Definition le64 (n : Z) : bytes := le_fixed 8 n.

(** common/hash.go 39-47: one part = bytes, delimiter, 8-byte length *)
Definition frame_part (b : bytes) : bytes := b ++ [delim] ++ le64 (Z.of_nat (length b)).

(** common/hash.go 29-47: the byte string written into the hash state *)
Definition frame (xs : list bytes) : bytes :=
  le64 (Z.of_nat (length xs)) ++ concat (map frame_part xs).

Section Hash.
  Variable H : bytes -> bytes.

  (** common/hash.go 22-56 SHA512_256; [None] is the nil result for no input *)
  Definition sha_parts (xs : list bytes) : option bytes :=
    match xs with [] => None | _ => Some (H (frame xs)) end.

  (** common/hash.go 58-96 SHA512_256i (all pointers non-nil; a nil element panics in n.Bytes()) *)
  Definition sha_ints (xs : list Z) : option Z :=
    match xs with [] => None | _ => Some (of_be (H (frame (map to_be xs)))) end.

  (** common/hash.go 98-112 SHA512_256iOne *)
  Definition sha_int_one (x : Z) : Z := of_be (H (to_be x)).

  (** common/hash.go 115-156 SHA512_256i_TAGGED; [None] elements are nil pointers (hashed as 0) *)
  Definition sha_tagged (tag : bytes) (xs : list (option Z)) : option Z :=
    let t := H (frame [tag]) in
    match xs with
    | [] => None
    | _ => Some (of_be (H (t ++ t ++ frame (map (fun o => match o with Some z => to_be z | None => to_be 0 end) xs))))
    end.
End Hash.

(** A list of parts that a Go program can hold (lengths fit a non-negative 64-bit int). *)
Definition parts_ok (xs : list bytes) : Prop :=
  Z.of_nat (length xs) < 2 ^ 63 /\ Forall (fun b => Z.of_nat (length b) < 2 ^ 63) xs.

Lemma le64_length n : length (le64 n) = 8%nat.
Proof. apply le_fixed_length. Qed.
Lemma le64_inj a b : 0 <= a < 2 ^ 63 -> 0 <= b < 2 ^ 63 -> le64 a = le64 b -> a = b.
Proof.
  intros Ha Hb. apply le_fixed_inj; change (256 ^ Z.of_nat 8) with (2 ^ 64); lia.
Qed.

Lemma app_inj_tail_len {A} (a b c d : list A) : a ++ b = c ++ d -> length b = length d -> a = c /\ b = d.
Proof.
  intros E L. assert (length a = length c).
  { apply (f_equal (@length A)) in E. rewrite !app_length in E. lia. }
  revert c E H. induction a as [|x a IH]; intros [|y c] E HL; simpl in *; try discriminate; auto.
  inversion E; subst. destruct (IH c) as [-> ->]; auto.
Qed.
Lemma app_inj_head_len {A} (a b c d : list A) : a ++ b = c ++ d -> length a = length c -> a = c /\ b = d.
Proof.
  intros E L. apply app_inj_tail_len; auto.
  apply (f_equal (@length A)) in E. rewrite !app_length in E. lia.
Qed.

Lemma frame_parts_inj xs ys :
  length xs = length ys ->
  Forall (fun b => Z.of_nat (length b) < 2 ^ 63) xs ->
  Forall (fun b => Z.of_nat (length b) < 2 ^ 63) ys ->
  concat (map frame_part xs) = concat (map frame_part ys) -> xs = ys.
Proof.
  revert ys. induction xs as [|x xs IH] using rev_ind; intros ys HL Hx Hy HE.
  - destruct ys; [reflexivity|discriminate].
  - destruct ys as [|y ys _] using rev_ind; [rewrite app_length in HL; simpl in HL; lia|].
    rewrite !map_app, !concat_app in HE. cbn [map concat] in HE. rewrite !app_nil_r in HE.
    unfold frame_part in HE at 2 4. rewrite !app_assoc in HE.
    apply app_inj_tail_len in HE; [|rewrite !le64_length; reflexivity].
    destruct HE as [HE HLn].
    apply Forall_app in Hx. apply Forall_app in Hy. destruct Hx as [Hx Hx1], Hy as [Hy Hy1].
    apply Forall_inv in Hx1. apply Forall_inv in Hy1. cbv beta in Hx1, Hy1.
    apply le64_inj in HLn; [|split; [lia|exact Hx1]|split; [lia|exact Hy1]].
    rewrite <- !app_assoc in HE. rewrite !app_assoc in HE.
    apply app_inj_tail_len in HE; [|reflexivity]. destruct HE as [HE _].
    apply app_inj_tail_len in HE; [|lia]. destruct HE as [HE ->].
    rewrite !app_length in HL. simpl in HL.
    f_equal. apply IH; auto. lia.
Qed.

Lemma frame_inj xs ys : parts_ok xs -> parts_ok ys -> frame xs = frame ys -> xs = ys.
Proof.
  intros [Lx Hx] [Ly Hy] HE. unfold frame in HE.
  apply app_inj_head_len in HE; [|rewrite !le64_length; reflexivity].
  destruct HE as [HC HE]. apply le64_inj in HC; [|lia|lia].
  apply frame_parts_inj; auto. apply Nat2Z.inj; exact HC.
Qed.

Lemma map_to_be_inj xs ys :
  Forall (fun z => 0 <= z) xs -> Forall (fun z => 0 <= z) ys -> map to_be xs = map to_be ys -> xs = ys.
Proof.
  revert ys; induction xs as [|x xs IH]; intros [|y ys] Hx Hy HE; try discriminate; [reflexivity|].
  inversion HE as [[E1 E2]]. inversion Hx; inversion Hy; subst. f_equal; [apply to_be_inj; auto|apply IH; auto].
Qed.

(** A collision of [H]: two different inputs with the same digest. *)
Definition collision (H : bytes -> bytes) (a b : bytes) : Prop := a <> b /\ H a = H b.

Lemma sha_parts_inj H xs ys :
  parts_ok xs -> parts_ok ys -> sha_parts H xs = sha_parts H ys -> xs <> [] \/ ys <> [] ->
  xs = ys \/ collision H (frame xs) (frame ys).
Proof.
  intros Hx Hy HE HN.
  destruct (list_eq_dec (list_eq_dec (fun a b => byte_eq_dec a b)) xs ys) as [|D]; [left; assumption|right].
  destruct xs as [|x xs]; destruct ys as [|y ys]; simpl in HE; try discriminate; [destruct HN; congruence|].
  split; [|congruence]. intro F. apply D. apply frame_inj; assumption.
Qed.

Lemma sha_ints_inj H xs ys :
  (forall a b, length (H a) = length (H b)) ->
  parts_ok (map to_be xs) -> parts_ok (map to_be ys) ->
  Forall (fun z => 0 <= z) xs -> Forall (fun z => 0 <= z) ys ->
  sha_ints H xs = sha_ints H ys -> xs <> [] \/ ys <> [] ->
  xs = ys \/ collision H (frame (map to_be xs)) (frame (map to_be ys)).
Proof.
  intros HL Hx Hy Px Py HE HN.
  destruct (list_eq_dec Z.eq_dec xs ys) as [|D]; [left; assumption|right].
  destruct xs as [|x xs]; destruct ys as [|y ys]; cbn [sha_ints] in HE; try discriminate; [destruct HN; congruence|].
  split.
  - intro F. apply D. apply map_to_be_inj; auto. apply frame_inj; assumption.
  - inversion HE as [E]. apply of_be_inj_len; [apply HL|exact E].
Qed.

(** The signed variant: the sign of an element is not hashed. *)
Lemma sha_ints_sign_lost H : exists xs ys, xs <> ys /\ sha_ints H xs = sha_ints H ys.
Proof. exists [5], [-5]. split; [discriminate|reflexivity]. Qed.

Lemma sha_tagged_inj H tag tag' xs ys :
  (forall a b, length (H a) = length (H b)) ->
  parts_ok [tag] -> parts_ok [tag'] ->
  parts_ok (map to_be xs) -> parts_ok (map to_be ys) ->
  Forall (fun z => 0 <= z) xs -> Forall (fun z => 0 <= z) ys ->
  xs <> [] -> ys <> [] ->
  sha_tagged H tag (map Some xs) = sha_tagged H tag' (map Some ys) ->
  (tag = tag' /\ xs = ys) \/ exists a b, collision H a b.
Proof.
  intros HL Ht Ht' Hx Hy Px Py Nx Ny HE.
  unfold sha_tagged in HE.
  destruct xs as [|x xs]; [congruence|]. destruct ys as [|y ys]; [congruence|].
  rewrite !map_map in HE.
  change (match map Some (x :: xs) with [] => @None Z | _ :: _ =>
     Some (of_be (H (H (frame [tag]) ++ H (frame [tag]) ++ frame (map to_be (x :: xs))))) end =
     match map Some (y :: ys) with [] => @None Z | _ :: _ =>
     Some (of_be (H (H (frame [tag']) ++ H (frame [tag']) ++ frame (map to_be (y :: ys))))) end) in HE.
  cbn [map] in HE. inversion HE as [E]. clear HE.
  apply of_be_inj_len in E; [|apply HL].
  match type of E with H ?a = H ?b => set (u := a) in *; set (v := b) in * end.
  destruct (bytes_dec u v) as [D|D]; [|right; exists u, v; split; assumption].
  subst u v. apply app_inj_head_len in D; [|apply HL]. destruct D as [D1 D].
  apply app_inj_head_len in D; [|apply HL]. destruct D as [_ D2].
  destruct (bytes_dec tag tag') as [->|Dt].
  - left; split; [reflexivity|]. apply map_to_be_inj; auto. apply frame_inj; auto.
  - right. exists (frame [tag]), (frame [tag']). split; [|exact D1].
    intro F. apply frame_inj in F; auto. congruence.
Qed.
