(* C34: the digest of hash() is SHA-1. *)
From Coq Require Import Ascii String.
From Verif Require Import Base Sha1Model Sha1Spec Sha1Proofs Sha1Proofs2 Sha1Proofs3.
Local Open Scope list_scope.
Definition lit (s : string) : list ascii := list_ascii_of_string s.
Notation length := List.length.

Theorem C34_sha1 : forall (s : list ascii) k, (Z.of_nat (length s) < 2 ^ 29)%Z -> padding (map byte s) k ->
  calc (map byte s) = Ok (hex_digest (digest_words (padded (map byte s) k))).
Proof.
  intros s k L P. apply calc_ok; auto; [apply map_byte_ok|]. rewrite map_length.
  change (2 ^ 32)%Z with (2 ^ 29 * 8)%Z. lia.
Qed.
Print Assumptions C34_sha1.
(* the padding exists, is unique, and makes whole blocks *)
Theorem C34_padding : forall m, exists k, padding m k /\ (forall k', padding m k' -> k' = k) /\
  length (padded m k) mod 64 = 0.
Proof.
  intros m. destruct (padding_exists m) as (k & P). exists k. split; [exact P|]. split.
  - intros k' P'. destruct P as (A & B), P' as (A' & B'). apply Nat.le_antisymm; auto.
  - destruct P as (A & _). unfold padded. rewrite !app_length, repeat_length. cbn [length be64 map].
    replace (length m + (1 + (k + 8))) with (length m + 1 + k + 8) by lia.
    rewrite Nat.add_mod, A by lia. reflexivity.
Qed.
Print Assumptions C34_padding.
Theorem C34_length : forall s : list ascii, (Z.of_nat (length s) < 2 ^ 29)%Z ->
  exists d, calc (map byte s) = Ok d /\ length d = 40.
Proof.
  intros s L. destruct (padding_exists (map byte s)) as (k & P). rewrite (C34_sha1 s k L P). eexists. split; [reflexivity|].
  unfold hex_digest. destruct (digest_words _) as [[[[a b] c] d] e]. reflexivity.
Qed.
Print Assumptions C34_length.
(* hash(args...) digests the concatenation of the type names and texts of the arguments *)
Theorem C34_hash : forall args, hash args = calc (map byte (concat (map (fun a => fst a ++ snd a) args))).
Proof. intros. apply (hash_concat args []). Qed.
Print Assumptions C34_hash.
(* argument boundaries are not part of what is digested *)
Theorem C34_boundaries_refuted : forall ty a b, ty <> [] ->
  hash [(ty, a); (ty, b)] = hash [(ty, a ++ ty ++ b)] /\
  [(ty, a); (ty, b)] <> [(ty, a ++ ty ++ b)].
Proof. intros ty a b N. rewrite !C34_hash. cbn. rewrite !app_nil_r, <- !app_assoc. split; [reflexivity|discriminate]. Qed.
Print Assumptions C34_boundaries_refuted.
(* test vectors of FIPS 180 *)
Example C34_ex : calc (map byte (lit "abc")) = Ok (lit "a9993e364706816aba3e25717850c26c9cd0d89d") /\
  calc (map byte (lit "abcdbcdecdefdefgefghfghighijhijkijkljklmklmnlmnomnopnopq")) = Ok (lit "84983e441c3bd26ebaae4aa1f95129e5e54670f1") /\
  calc [] = Ok (lit "da39a3ee5e6b4b0d3255bfef95601890afd80709").
Proof. vm_compute. auto. Qed.
