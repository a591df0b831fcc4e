From Coq Require Import ZArith List Bool Lia Znumtheory Zpow_facts ZifyBool ZifyNat Arith.
From Verif Require Import GoBase RsaModel RsaSpec RsaProofs RsaMore RsaSign RsaApi RsaKeys CryptoSpec.
Import ListNotations.
Local Open Scope Z_scope.

Lemma hash_panics : forall S bits c s src sig h, std_ok S -> pair_of S bits c s ->
  (sign S s src h = Panic <-> hash_of S h = None) /\ (verify S c src sig h = Panic <-> hash_of S h = None).
Proof.
  intros S bits c s src sig h HS HP. destruct (pair_key S bits c s HS HP) as (k & Hk & Hb & -> & ->).
  unfold sign, verify. destruct (hash_of S h); repeat split; intros; congruence.
Qed.

Lemma sign_witness :
  (exists sig, sign_default (toy_std true) (Some key751) [104; 105] = Ok (Val sig) /\ zlen sig = 94 /\
     verify_default (toy_std true) (Some (sk_pub key751)) [104; 105] sig = Ok None) /\
  sign_default (toy_std true) (Some key101) [104; 105] = Ok (Err ETooLong) /\
  sign (toy_std true) (Some key751) [104; 105] 14 = Ok (Err EHash).
Proof.
  split; [|split; vm_compute; reflexivity].
  destruct (sign_default_exact (toy_std true) 751 _ _ [104; 105] (toy_ok true) (pair751 true)) as [A _].
  destruct (A ltac:(lia)) as (sig & E & V). exists sig. split; auto. split; auto.
  apply (sign_verify (toy_std true) 751 (Some (sk_pub key751)) (Some key751) [104; 105] 7 sig (toy_ok true) (pair751 true)). exact E.
Qed.

Lemma transfer_witness :
  exists sig, sign_default (toy_std true) (Some key751) [104; 105] = Ok (Val sig) /\
    verify_default (toy_std true) (Some (sk_pub key751)) [1; 2] sig = Ok None /\
    verify_default (toy_std true) (Some (sk_pub key751)) [1; 2; 3] sig <> Ok None.
Proof.
  destruct (sign_default_exact (toy_std true) 751 _ _ [104; 105] (toy_ok true) (pair751 true)) as [A _].
  destruct (A ltac:(lia)) as (sig & E & V). exists sig. split; auto.
  assert (V2 : verify_default (toy_std true) (Some (sk_pub key751)) [1; 2] sig = Ok None).
  { rewrite <- V. unfold verify_default, verify, default_hash.
    change (hash_of (toy_std true) 7) with (Some (toy_hash 64)). cbv iota.
    change (toy_hash 64 [1; 2]) with (toy_hash 64 [104; 105]). reflexivity. }
  split; auto. intro V3.
  destruct (no_transfer (toy_std true) 751 _ _ [1; 2] 7 (toy_hash 64) [1; 2; 3] 7 (toy_hash 64) sig (toy_ok true) (pair751 true) eq_refl eq_refl V2 V3) as [_ C].
  vm_compute in C. discriminate.
Qed.

Lemma errors_witness : exists S pem bits c s src sig, std_ok S /\ new_client S pem = Panic /\
  pair_of S bits c s /\ sign S s src 1 = Panic /\ verify S c src sig 1 = Panic.
Proof.
  exists (toy_std true), [1; 3; 5], 101, (Some (sk_pub key101)), (Some key101), [1], [2].
  split; [apply toy_ok|]. split; [reflexivity|]. split; [apply pair101|]. split; reflexivity.
Qed.
