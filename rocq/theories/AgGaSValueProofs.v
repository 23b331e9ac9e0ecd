(** The refractive indices of the sulfide at three wavelengths (C132). *)
From Coq Require Import String.
From Coq Require Import Reals List ZArith Bool Arith Lia Lra Psatz.
From Verif Require Import Base CNum NumPy ModelPulse ModelCrystal CrystalProofs AgseProofs AgsePhaseProofs ModelAgGaS AgGaSProofs.
Import ListNotations.
Local Open Scope R_scope.

Lemma genc_o_2 : 2.413 ^ 2 < val4 gas_o 2 < 2.415 ^ 2.
Proof.
  assert (La : 8.9002 <= Rpower 2 3.156983) by (apply (rp_ge 2 _ 41 13); num). assert (Ha : Rpower 2 3.156983 <= 8.9797) by (apply (rp_le 2 _ 19 6); num).
  pose proof (frac_le 0.0867547 (0.0356502) (Rpower 2 3.156983) 8.9002 ltac:(lra) ltac:(lra) La). pose proof (frac_le 0.0867547 (0.0356502) 8.9797 (Rpower 2 3.156983) ltac:(lra) ltac:(lra) Ha).
  assert (Lb : 21.5344 <= Rpower 2 4.430430) by (apply (rp_ge 2 _ 31 7); num). assert (Hb : Rpower 2 4.430430 <= 21.6681) by (apply (rp_le 2 _ 71 16); num).
  pose proof (frac_le 0.0821721 (-0.315646) (Rpower 2 4.430430) 21.5344 ltac:(lra) ltac:(lra) Lb). pose proof (frac_le 0.0821721 (-0.315646) 21.6681 (Rpower 2 4.430430) ltac:(lra) ltac:(lra) Hb).
  assert (Lc : 97.0058 <= Rpower 2 6.604280) by (apply (rp_ge 2 _ 33 5); num). assert (Hc : Rpower 2 6.604280 <= 98.0459) by (apply (rp_le 2 _ 86 13); num).
  pose proof (frac_le 0.506566 (-6.582197) (Rpower 2 6.604280) 97.0058 ltac:(lra) ltac:(lra) Lc). pose proof (frac_le 0.506566 (-6.582197) 98.0459 (Rpower 2 6.604280) ltac:(lra) ltac:(lra) Hc).
  assert (Ld : 4.6661 <= Rpower 2 2.225043) by (apply (rp_ge 2 _ 20 9); num). assert (Hd : Rpower 2 2.225043 <= 4.6939) by (apply (rp_le 2 _ 29 13); num).
  pose proof (tail_le 176380.0 112586195.0 4.6661 (Rpower 2 2.225043) ltac:(lra) ltac:(lra) ltac:(lra)). pose proof (tail_le 176380.0 112586195.0 (Rpower 2 2.225043) 4.6939 ltac:(lra) ltac:(lra) ltac:(lra)).
  gunf.
  lra.
Qed.
Lemma genc_o_5 : 2.399 ^ 2 < val4 gas_o 5 < 2.401 ^ 2.
Proof.
  assert (La : 160.1193 <= Rpower 5 3.156983) by (apply (rp_ge 5 _ 41 13); num). assert (Ha : Rpower 5 3.156983 <= 163.4576) by (apply (rp_le 5 _ 19 6); num).
  pose proof (frac_le 0.0867547 (0.0356502) (Rpower 5 3.156983) 160.1193 ltac:(lra) ltac:(lra) La). pose proof (frac_le 0.0867547 (0.0356502) 163.4576 (Rpower 5 3.156983) ltac:(lra) ltac:(lra) Ha).
  assert (Lb : 1245.772 <= Rpower 5 4.430430) by (apply (rp_ge 5 _ 31 7); num). assert (Hb : Rpower 5 4.430430 <= 1263.8031) by (apply (rp_le 5 _ 71 16); num).
  pose proof (frac_le 0.0821721 (-0.315646) (Rpower 5 4.430430) 1245.772 ltac:(lra) ltac:(lra) Lb). pose proof (frac_le 0.0821721 (-0.315646) 1263.8031 (Rpower 5 4.430430) ltac:(lra) ltac:(lra) Hb).
  assert (Lc : 41039.4969 <= Rpower 5 6.604280) by (apply (rp_ge 5 _ 33 5); num). assert (Hc : Rpower 5 6.604280 <= 42068.3437) by (apply (rp_le 5 _ 86 13); num).
  pose proof (frac_le 0.506566 (-6.582197) (Rpower 5 6.604280) 41039.4969 ltac:(lra) ltac:(lra) Lc). pose proof (frac_le 0.506566 (-6.582197) 42068.3437 (Rpower 5 6.604280) ltac:(lra) ltac:(lra) Hc).
  assert (Ld : 35.7492 <= Rpower 5 2.225043) by (apply (rp_ge 5 _ 20 9); num). assert (Hd : Rpower 5 2.225043 <= 36.2444) by (apply (rp_le 5 _ 29 13); num).
  pose proof (tail_le 176380.0 112586195.0 35.7492 (Rpower 5 2.225043) ltac:(lra) ltac:(lra) ltac:(lra)). pose proof (tail_le 176380.0 112586195.0 (Rpower 5 2.225043) 36.2444 ltac:(lra) ltac:(lra) ltac:(lra)).
  gunf.
  lra.
Qed.
Lemma genc_o_10 : 2.355 ^ 2 < val4 gas_o 10 < 2.357 ^ 2.
Proof.
  assert (La : 1425.1026 <= Rpower 10 3.156983) by (apply (rp_ge 10 _ 41 13); num). assert (Ha : Rpower 10 3.156983 <= 1467.7993) by (apply (rp_le 10 _ 19 6); num).
  pose proof (frac_le 0.0867547 (0.0356502) (Rpower 10 3.156983) 1425.1026 ltac:(lra) ltac:(lra) La). pose proof (frac_le 0.0867547 (0.0356502) 1467.7993 (Rpower 10 3.156983) ltac:(lra) ltac:(lra) Ha).
  assert (Lb : 26826.9579 <= Rpower 10 4.430430) by (apply (rp_ge 10 _ 31 7); num). assert (Hb : Rpower 10 4.430430 <= 27384.1964) by (apply (rp_le 10 _ 71 16); num).
  pose proof (frac_le 0.0821721 (-0.315646) (Rpower 10 4.430430) 26826.9579 ltac:(lra) ltac:(lra) Lb). pose proof (frac_le 0.0821721 (-0.315646) 27384.1964 (Rpower 10 4.430430) ltac:(lra) ltac:(lra) Hb).
  assert (Lc : 3981071.7055 <= Rpower 10 6.604280) by (apply (rp_ge 10 _ 33 5); num). assert (Hc : Rpower 10 6.604280 <= 4124626.383) by (apply (rp_le 10 _ 86 13); num).
  pose proof (frac_le 0.506566 (-6.582197) (Rpower 10 6.604280) 3981071.7055 ltac:(lra) ltac:(lra) Lc). pose proof (frac_le 0.506566 (-6.582197) 4124626.383 (Rpower 10 6.604280) ltac:(lra) ltac:(lra) Hc).
  assert (Ld : 166.81 <= Rpower 10 2.225043) by (apply (rp_ge 10 _ 20 9); num). assert (Hd : Rpower 10 2.225043 <= 170.1255) by (apply (rp_le 10 _ 29 13); num).
  pose proof (tail_le 176380.0 112586195.0 166.81 (Rpower 10 2.225043) ltac:(lra) ltac:(lra) ltac:(lra)). pose proof (tail_le 176380.0 112586195.0 (Rpower 10 2.225043) 170.1255 ltac:(lra) ltac:(lra) ltac:(lra)).
  gunf.
  lra.
Qed.
Lemma genc_e_2 : 2.359 ^ 2 < val4 gas_e 2 < 2.361 ^ 2.
Proof.
  assert (La : 5.1235 <= Rpower 2 2.359877) by (apply (rp_ge 2 _ 33 14); num). assert (Ha : Rpower 2 2.359877 <= 5.1467) by (apply (rp_le 2 _ 26 11); num).
  pose proof (frac_le 0.0510941 (0.141109) (Rpower 2 2.359877) 5.1235 ltac:(lra) ltac:(lra) La). pose proof (frac_le 0.0510941 (0.141109) 5.1467 (Rpower 2 2.359877) ltac:(lra) ltac:(lra) Ha).
  assert (Lb : 5.9073 <= Rpower 2 2.566664) by (apply (rp_ge 2 _ 41 16); num). assert (Hb : Rpower 2 2.566664 <= 5.944) by (apply (rp_le 2 _ 18 7); num).
  pose proof (frac_le 0.195314 (-0.0910735) (Rpower 2 2.566664) 5.9073 ltac:(lra) ltac:(lra) Lb). pose proof (frac_le 0.195314 (-0.0910735) 5.944 (Rpower 2 2.566664) ltac:(lra) ltac:(lra) Hb).
  assert (Ld : 5.1873 <= Rpower 2 2.383834) by (apply (rp_ge 2 _ 19 8); num). assert (Hd : Rpower 2 2.383834 <= 5.2221) by (apply (rp_le 2 _ 31 13); num).
  pose proof (tail_le 4253.78 4304924.0 5.1873 (Rpower 2 2.383834) ltac:(lra) ltac:(lra) ltac:(lra)). pose proof (tail_le 4253.78 4304924.0 (Rpower 2 2.383834) 5.2221 ltac:(lra) ltac:(lra) ltac:(lra)).
  gunf.
  assert (Z : 0 / (Rpower 2 0 - 0) = 0) by (unfold Rdiv; ring). rewrite Z.
  lra.
Qed.
Lemma genc_e_5 : 2.342 ^ 2 < val4 gas_e 5 < 2.344 ^ 2.
Proof.
  assert (La : 44.4193 <= Rpower 5 2.359877) by (apply (rp_ge 5 _ 33 14); num). assert (Ha : Rpower 5 2.359877 <= 44.8861) by (apply (rp_le 5 _ 26 11); num).
  pose proof (frac_le 0.0510941 (0.141109) (Rpower 5 2.359877) 44.4193 ltac:(lra) ltac:(lra) La). pose proof (frac_le 0.0510941 (0.141109) 44.8861 (Rpower 5 2.359877) ltac:(lra) ltac:(lra) Ha).
  assert (Lb : 61.8173 <= Rpower 5 2.566664) by (apply (rp_ge 5 _ 41 16); num). assert (Hb : Rpower 5 2.566664 <= 62.7122) by (apply (rp_le 5 _ 18 7); num).
  pose proof (frac_le 0.195314 (-0.0910735) (Rpower 5 2.566664) 61.8173 ltac:(lra) ltac:(lra) Lb). pose proof (frac_le 0.195314 (-0.0910735) 62.7122 (Rpower 5 2.566664) ltac:(lra) ltac:(lra) Hb).
  assert (Ld : 45.7144 <= Rpower 5 2.383834) by (apply (rp_ge 5 _ 19 8); num). assert (Hd : Rpower 5 2.383834 <= 46.4275) by (apply (rp_le 5 _ 31 13); num).
  pose proof (tail_le 4253.78 4304924.0 45.7144 (Rpower 5 2.383834) ltac:(lra) ltac:(lra) ltac:(lra)). pose proof (tail_le 4253.78 4304924.0 (Rpower 5 2.383834) 46.4275 ltac:(lra) ltac:(lra) ltac:(lra)).
  gunf.
  assert (Z : 0 / (Rpower 5 0 - 0) = 0) by (unfold Rdiv; ring). rewrite Z.
  lra.
Qed.
Lemma genc_e_10 : 2.3 ^ 2 < val4 gas_e 10 < 2.302 ^ 2.
Proof.
  assert (La : 227.5845 <= Rpower 10 2.359877) by (apply (rp_ge 10 _ 33 14); num). assert (Ha : Rpower 10 2.359877 <= 231.013) by (apply (rp_le 10 _ 26 11); num).
  pose proof (frac_le 0.0510941 (0.141109) (Rpower 10 2.359877) 227.5845 ltac:(lra) ltac:(lra) La). pose proof (frac_le 0.0510941 (0.141109) 231.013 (Rpower 10 2.359877) ltac:(lra) ltac:(lra) Ha).
  assert (Lb : 365.1741 <= Rpower 10 2.566664) by (apply (rp_ge 10 _ 41 16); num). assert (Hb : Rpower 10 2.566664 <= 372.7594) by (apply (rp_le 10 _ 18 7); num).
  pose proof (frac_le 0.195314 (-0.0910735) (Rpower 10 2.566664) 365.1741 ltac:(lra) ltac:(lra) Lb). pose proof (frac_le 0.195314 (-0.0910735) 372.7594 (Rpower 10 2.566664) ltac:(lra) ltac:(lra) Hb).
  assert (Ld : 237.1373 <= Rpower 10 2.383834) by (apply (rp_ge 10 _ 19 8); num). assert (Hd : Rpower 10 2.383834 <= 242.4463) by (apply (rp_le 10 _ 31 13); num).
  pose proof (tail_le 4253.78 4304924.0 237.1373 (Rpower 10 2.383834) ltac:(lra) ltac:(lra) ltac:(lra)). pose proof (tail_le 4253.78 4304924.0 (Rpower 10 2.383834) 242.4463 ltac:(lra) ltac:(lra) ltac:(lra)).
  gunf.
  assert (Z : 0 / (Rpower 10 0 - 0) = 0) by (unfold Rdiv; ring). rewrite Z.
  lra.
Qed.
Lemma gsq x a b : 0 < a -> 0 < b -> a ^ 2 < x < b ^ 2 -> a < sqrt x < b.
Proof. intros Ha Hb [L H]. split; [rewrite <- (sqrt_pow2 a) by lra|rewrite <- (sqrt_pow2 b) by lra]; apply sqrt_lt_1_alt; split; try lra; [apply pow2_ge_0|]. apply Rlt_le, Rle_lt_trans with (a ^ 2); [apply pow2_ge_0|exact L]. Qed.

(*! C132: the two indices at 2, 5 and 10 um, to a thousandth. *)
Lemma C132_values_l : forall theta : R, let a := gas_init theta in exists o2 o5 o10 e2 e5 e10,
  gas_n a 2000 "o" = Ok o2 /\ gas_n a 5000 "o" = Ok o5 /\ gas_n a 10000 "o" = Ok o10 /\ gas_n a 2000 "e" = Ok e2 /\ gas_n a 5000 "e" = Ok e5 /\ gas_n a 10000 "e" = Ok e10 /\
  2.413 < o2 < 2.415 /\ 2.399 < o5 < 2.401 /\ 2.355 < o10 < 2.357 /\ 2.359 < e2 < 2.361 /\ 2.342 < e5 < 2.344 /\ 2.3 < e10 < 2.302.
Proof.
  intros theta a. exists (gn_o 2000), (gn_o 5000), (gn_o 10000), (gn_e 2000), (gn_e 5000), (gn_e 10000).
  destruct (goe_val theta 2000 ltac:(lra)) as [A1 B1]. destruct (goe_val theta 5000 ltac:(lra)) as [A2 B2]. destruct (goe_val theta 10000 ltac:(lra)) as [A3 B3].
  split; [exact A1|]. split; [exact A2|]. split; [exact A3|]. split; [exact B1|]. split; [exact B2|]. split; [exact B3|]. unfold gn_o, gn_e.
  replace (2000 * 0.001) with 2 by lra. replace (5000 * 0.001) with 5 by lra. replace (10000 * 0.001) with 10 by lra.
  split; [apply gsq; [lra|lra|exact genc_o_2]|]. split; [apply gsq; [lra|lra|exact genc_o_5]|]. split; [apply gsq; [lra|lra|exact genc_o_10]|]. split; [apply gsq; [lra|lra|exact genc_e_2]|]. split; [apply gsq; [lra|lra|exact genc_e_5]|]. apply gsq; [lra|lra|exact genc_e_10].
Qed.
