(** The two BN254 moduli are prime; the two concrete fields. *)
From Coq Require Import ZArith Znumtheory List.
From Verif Require Import Primality Bn254Cert Bn254 PField.
Import ListNotations.
Local Open Scope Z_scope.

(** ** Both moduli are prime (Pocklington certificates) *)
Ltac cert n a c := apply (pocklington n a c);
  [cbn [map fst c]; repeat (apply Forall_cons; [assumption|]); apply Forall_nil
  |cbn [map fst c]; repeat (apply NoDup_cons; [cbn; intuition discriminate|]); apply NoDup_nil
  |vm_compute; reflexivity].
Lemma p1637 : prime 1637.
Proof. apply trial_prime. vm_compute. reflexivity. Qed.
Lemma p853 : prime 853.
Proof. apply trial_prime. vm_compute. reflexivity. Qed.
Lemma p639533339 : prime 639533339.
Proof.
  pose proof p1637. pose proof p853.
  cert 639533339 2 cert_639533339.
Qed.
Lemma p65865678001877903 : prime 65865678001877903.
Proof.
  pose proof p639533339.
  cert 65865678001877903 2 cert_65865678001877903.
Qed.
Lemma p13818364434197438864469338081 : prime 13818364434197438864469338081.
Proof.
  pose proof p65865678001877903.
  cert 13818364434197438864469338081 2 cert_13818364434197438864469338081.
Qed.
Lemma p93001 : prime 93001.
Proof. apply trial_prime. vm_compute. reflexivity. Qed.
Lemma p661 : prime 661.
Proof. apply trial_prime. vm_compute. reflexivity. Qed.
Lemma p12048837557 : prime 12048837557.
Proof.
  pose proof p93001. pose proof p661.
  cert 12048837557 2 cert_12048837557.
Qed.
Lemma p5156902474397 : prime 5156902474397.
Proof.
  pose proof p12048837557.
  cert 5156902474397 2 cert_5156902474397.
Qed.
Lemma p1670836401704629 : prime 1670836401704629.
Proof.
  pose proof p5156902474397.
  cert 1670836401704629 2 cert_1670836401704629.
Qed.
Lemma fr_prime : prime fr_mod.
Proof.
  pose proof p13818364434197438864469338081. pose proof p1670836401704629.
  cert fr_mod 2 cert_fr_mod.
Qed.
Lemma p3557 : prime 3557.
Proof. apply trial_prime. vm_compute. reflexivity. Qed.
Lemma p911 : prime 911.
Proof. apply trial_prime. vm_compute. reflexivity. Qed.
Lemma p1263766531 : prime 1263766531.
Proof.
  pose proof p3557. pose proof p911.
  cert 1263766531 2 cert_1263766531.
Qed.
Lemma p35385462869 : prime 35385462869.
Proof.
  pose proof p1263766531.
  cert 35385462869 2 cert_35385462869.
Qed.
Lemma p2480874801745591 : prime 2480874801745591.
Proof.
  pose proof p35385462869.
  cert 2480874801745591 2 cert_2480874801745591.
Qed.
Lemma p13327 : prime 13327.
Proof. apply trial_prime. vm_compute. reflexivity. Qed.
Lemma p173171039 : prime 173171039.
Proof.
  pose proof p13327.
  cert 173171039 2 cert_173171039.
Qed.
Lemma p13427688667394608761327070753331941386769 : prime 13427688667394608761327070753331941386769.
Proof.
  pose proof p2480874801745591. pose proof p173171039.
  cert 13427688667394608761327070753331941386769 2 cert_13427688667394608761327070753331941386769.
Qed.
Lemma fq_prime : prime fq_mod.
Proof.
  pose proof p13427688667394608761327070753331941386769.
  cert fq_mod 2 cert_fq_mod.
Qed.

(** the native field and the emulated field of the aggregation circuits *)
Definition Fr : PF := FpPF fr_mod fr_prime.
Definition Fq : PF := FpPF fq_mod fq_prime.
