(** The binary64 constant pi is within 2^-51 of pi. *)
From Coq Require Import Reals Lra Lia ZArith Machin.
Local Open Scope R_scope.

(** partial sums of the Machin-like series pi/4 = 2 atan(1/3) + atan(1/7), as fractions *)
Definition tnum (n : nat) : Z := ((-1) ^ Z.of_nat n * (2 * 7 ^ (2 * Z.of_nat n + 1) + 3 ^ (2 * Z.of_nat n + 1)))%Z.
Definition tden (n : nat) : Z := (21 ^ (2 * Z.of_nat n + 1) * (2 * Z.of_nat n + 1))%Z.
Fixpoint psum (n : nat) : Z * Z :=
  match n with
  | O => (tnum 0, tden 0)
  | S k => let '(a, b) := psum k in ((a * tden (S k) + tnum (S k) * b)%Z, (b * tden (S k))%Z)
  end.
Lemma tden_pos n : (0 < tden n)%Z.
Proof. unfold tden. apply Z.mul_pos_pos; [apply Z.pow_pos_nonneg; lia|lia]. Qed.
Lemma psum_pos n : (0 < snd (psum n))%Z.
Proof.
  induction n; [reflexivity|]. cbn [psum]. destruct (psum n) as [a b]. cbn [snd] in *.
  apply Z.mul_pos_pos; [exact IHn|apply tden_pos].
Qed.
Lemma pow_IZR z n : IZR (z ^ Z.of_nat n) = IZR z ^ n.
Proof. symmetry. apply pow_IZR. Qed.
Lemma term_frac n : tg_alt PI_2_3_7_tg n = IZR (tnum n) / IZR (tden n).
Proof.
  unfold tg_alt, PI_2_3_7_tg, Ratan_seq, tnum, tden.
  replace (2 * Z.of_nat n + 1)%Z with (Z.of_nat (2 * n + 1)) by lia.
  rewrite !mult_IZR, plus_IZR, mult_IZR, !pow_IZR, <- INR_IZR_INZ.
  set (k := (2 * n + 1)%nat). assert (K : 0 < INR k) by (apply lt_0_INR; unfold k; lia).
  rewrite !pow_inv. replace (21 ^ k) with (3 ^ k * 7 ^ k) by (rewrite <- Rpow_mult_distr; f_equal; lra).
  assert (3 ^ k <> 0) by (apply pow_nonzero; lra). assert (7 ^ k <> 0) by (apply pow_nonzero; lra).
  change (IZR (-1)) with (-1). field. repeat split; lra.
Qed.
Lemma sum_frac n : sum_f_R0 (tg_alt PI_2_3_7_tg) n = IZR (fst (psum n)) / IZR (snd (psum n)).
Proof.
  induction n.
  - cbn [sum_f_R0]. apply term_frac.
  - rewrite tech5, IHn, term_frac. cbn [psum]. pose proof (psum_pos n) as P. destruct (psum n) as [a b]. cbn [fst snd] in *.
    pose proof (tden_pos (S n)) as Q. apply IZR_lt in P, Q. rewrite plus_IZR, !mult_IZR. field. lra.
Qed.
Lemma frac_le a b c d : (0 < b)%Z -> (0 < d)%Z -> (a * d <= c * b)%Z -> IZR a / IZR b <= IZR c / IZR d.
Proof.
  intros B D H. apply IZR_le in H. rewrite !mult_IZR in H. apply IZR_lt in B, D.
  apply (Rmult_le_reg_r (IZR b * IZR d)); [apply Rmult_lt_0_compat; assumption|].
  replace (IZR a / IZR b * (IZR b * IZR d)) with (IZR a * IZR d) by (field; lra).
  replace (IZR c / IZR d * (IZR b * IZR d)) with (IZR c * IZR b) by (field; lra). exact H.
Qed.
Lemma pi_close : Rabs (7074237752028440 / 2251799813685248 - PI) <= / 2251799813685248.
Proof.
  destruct (PI_2_3_7_ineq 8) as [A B]. rewrite sum_frac in A, B.
  assert (A' : 7074237752028440 / 9007199254740992 <= PI / 4).
  { eapply Rle_trans; [|exact A]. apply frac_le; [reflexivity|apply psum_pos|]. apply Z.leb_le. vm_compute. reflexivity. }
  assert (B' : PI / 4 <= 7074237752028441 / 9007199254740992).
  { eapply Rle_trans; [exact B|]. apply frac_le; [apply psum_pos|reflexivity|]. apply Z.leb_le. vm_compute. reflexivity. }
  apply Rabs_le. split; lra.
Qed.
