(** DurationProofs.v: durations (C05-C07) and tempo (C13). *)
From Coq Require Import ZArith Reals Lia Lra Psatz ZifyBool.
From Flocq Require Import Core.Core IEEE754.BinarySingleNaN Relative.
From Verif Require Import Base F32 ProofLib F32Proofs Messages Command Track.
Open Scope Z_scope.

#[local] Instance Hprec' : FLX.Prec_gt_0 24 := eq_refl.
#[local] Instance fexp32_valid' : Valid_exp fexp32 := FLT_exp_valid (-149) 24.

(** ** Kahan: (k / 24) * 24 = k in single precision, for integers below 2^23. *)
Lemma rnd_scaled (x : R) (ex : Z) (n : Z) :
  (bpow radix2 (ex - 1) <= Rabs x < bpow radix2 ex)%R -> -125 <= ex ->
  ZnearestE (x * bpow radix2 (24 - ex)) = n ->
  rnd x = (IZR n * bpow radix2 (ex - 24))%R.
Proof.
  intros Hx He Hn. unfold rnd, round, F2R. cbn [Fnum Fexp].
  assert (Hm : mag radix2 x = ex :> Z) by (apply mag_unique; exact Hx).
  assert (Hc : cexp radix2 fexp32 x = ex - 24).
  { unfold cexp. rewrite Hm. unfold fexp32, FLT_exp. lia. }
  unfold scaled_mantissa. rewrite Hc. replace (- (ex - 24)) with (24 - ex) by lia.
  rewrite Hn. reflexivity.
Qed.

Lemma Znearest_quarter K s : -1 <= s <= 1 -> ZnearestE ((IZR (4 * K + s)) / 4) = K.
Proof.
  intros Hs. apply Znearest_imp. rewrite plus_IZR, mult_IZR.
  replace ((4 * IZR K + IZR s) / 4 - IZR K)%R with (IZR s / 4)%R by field.
  assert (-1 <= IZR s <= 1)%R by (split; apply IZR_le; lia).
  apply Rabs_def1; lra.
Qed.
Lemma Znearest_halves K s : -1 <= s <= 1 -> ZnearestE ((IZR (4 * K + s)) / 2) = 2 * K.
Proof.
  intros Hs. assert (H : s = -1 \/ s = 0 \/ s = 1) by lia.
  destruct H as [->|[->| ->]].
  - assert (E : (IZR (4 * K + -1) / 2 = IZR (2 * K - 1) + / 2)%R).
    { rewrite minus_IZR, plus_IZR, !mult_IZR. field. }
    rewrite E. unfold Znearest.
    assert (F : Zfloor (IZR (2 * K - 1) + / 2) = 2 * K - 1).
    { apply Zfloor_imp. rewrite plus_IZR. lra. }
    rewrite F. replace (IZR (2 * K - 1) + / 2 - IZR (2 * K - 1))%R with (/2)%R by ring.
    rewrite Rcompare_Eq by reflexivity.
    assert (C : Zceil (IZR (2 * K - 1) + / 2) = 2 * K).
    { apply Zceil_imp. rewrite !minus_IZR. split; lra. }
    rewrite C. replace (2 * K - 1) with (1 + 2 * (K - 1)) by lia.
    rewrite Z.even_add_mul_2. reflexivity.
  - replace (IZR (4 * K + 0) / 2)%R with (IZR (2 * K)) by (rewrite plus_IZR, !mult_IZR; field).
    apply Znearest_imp. rewrite Rminus_diag_eq by reflexivity. rewrite Rabs_R0. lra.
  - assert (E : (IZR (4 * K + 1) / 2 = IZR (2 * K) + / 2)%R).
    { rewrite plus_IZR, !mult_IZR. field. }
    rewrite E. unfold Znearest.
    assert (F : Zfloor (IZR (2 * K) + / 2) = 2 * K).
    { apply Zfloor_imp. rewrite plus_IZR. lra. }
    rewrite F. replace (IZR (2 * K) + / 2 - IZR (2 * K))%R with (/2)%R by ring.
    rewrite Rcompare_Eq by reflexivity. rewrite Z.even_mul. reflexivity.
Qed.

Lemma kahan24 k : 0 <= k < 2 ^ 23 -> rnd (rnd (IZR k / 24) * 24) = IZR k.
Proof.
  intros Hk. destruct (Z.eq_dec k 0) as [->|Hnz].
  { replace (IZR 0 / 24)%R with 0%R by field. rewrite rnd_0, Rmult_0_l. apply rnd_0. }
  set (x := (IZR k / 24)%R).
  assert (Hx1 : (/ 24 <= x)%R).
  { unfold x. assert (1 <= IZR k)%R by (apply IZR_le; lia). lra. }
  assert (Hx2 : (x < bpow radix2 19)%R).
  { unfold x. change (bpow radix2 19) with (IZR (2 ^ 19)).
    assert (IZR k < IZR (2 ^ 23))%R by (apply IZR_lt; lia).
    apply Rlt_trans with (IZR (2 ^ 23) / 24)%R; [lra|]. change (2 ^ 19) with 524288. change (2 ^ 23) with 8388608. lra. }
  destruct (mag radix2 x) as [em Hem]. specialize (Hem ltac:(lra)).
  pose proof Hem as Hem'. rewrite Rabs_pos_eq in Hem by lra.
  assert (Hem1 : -4 <= em).
  { assert (H : (bpow radix2 (-5) < bpow radix2 em)%R).
    { apply Rlt_trans with (2 := proj2 Hem). change (bpow radix2 (-5)) with (/ 32)%R. lra. }
    apply lt_bpow in H. lia. }
  assert (Hem2 : em <= 19).
  { assert (H : (bpow radix2 (em - 1) < bpow radix2 19)%R) by lra. apply lt_bpow in H. lia. }
  set (a := ZnearestE (x * bpow radix2 (24 - em))).
  rewrite (rnd_scaled x em a Hem' ltac:(lia) eq_refl).
  set (K := k * 2 ^ (19 - em)).
  assert (HK : (x * bpow radix2 (24 - em) = IZR (4 * K) / 3)%R).
  { unfold x, K. rewrite !mult_IZR. rewrite <- (bpow_Z (19 - em)) by lia.
    replace (24 - em) with (5 + (19 - em)) by lia. rewrite bpow_plus.
    change (bpow radix2 5) with 32%R. field. }
  assert (Ha : -1 <= 3 * a - 4 * K <= 1).
  { assert (Hd : (Rabs (IZR (4 * K) / 3 - IZR a) <= / 2)%R).
    { unfold a. rewrite HK. apply Generic_fmt.Znearest_half. }
    apply Rabs_le_inv in Hd.
    assert (H1 : (IZR (-2) < IZR (3 * a - 4 * K))%R) by (rewrite minus_IZR, (mult_IZR 3 a); lra).
    assert (H2 : (IZR (3 * a - 4 * K) < IZR 2)%R) by (rewrite minus_IZR, (mult_IZR 3 a); lra).
    apply lt_IZR in H1. apply lt_IZR in H2. lia. }
  assert (HKb : (bpow radix2 23 <= IZR (4 * K) / 3 < bpow radix2 24)%R).
  { rewrite <- HK. split.
    - replace 23 with ((em - 1) + (24 - em)) by lia. rewrite bpow_plus.
      apply Rmult_le_compat_r; [apply bpow_ge_0|lra].
    - replace 24 with (em + (24 - em)) at 2 by lia. rewrite bpow_plus.
      apply Rmult_lt_compat_r; [apply bpow_gt_0|lra]. }
  change (bpow radix2 23) with (IZR (2 ^ 23)) in HKb. change (bpow radix2 24) with (IZR (2 ^ 24)) in HKb.
  assert (HKb1 : 3 * 2 ^ 23 <= 4 * K).
  { apply le_IZR. rewrite mult_IZR. lra. }
  assert (HKb2 : 4 * K < 3 * 2 ^ 24).
  { apply lt_IZR. rewrite (mult_IZR 3). lra. }
  set (s := 3 * a - 4 * K) in *.
  assert (Hy : (IZR a * bpow radix2 (em - 24) * 24 = IZR (4 * K + s) * bpow radix2 (em - 21))%R).
  { replace (4 * K + s) with (3 * a) by (unfold s; lia). replace (em - 21) with ((em - 24) + 3) by lia.
    rewrite bpow_plus, mult_IZR. change (bpow radix2 3) with 8%R. ring. }
  rewrite Hy.
  assert (Hfin : (IZR (4 * K) * bpow radix2 (em - 21) = IZR k)%R).
  { unfold K. rewrite !mult_IZR, <- (bpow_Z (19 - em)) by lia.
    replace (4 * (IZR k * bpow radix2 (19 - em)) * bpow radix2 (em - 21))%R
      with (IZR k * (4 * (bpow radix2 (19 - em) * bpow radix2 (em - 21))))%R by ring.
    rewrite <- bpow_plus. replace (19 - em + (em - 21)) with (-2) by lia.
    change (bpow radix2 (-2)) with (/ 4)%R. field. }
  assert (Hab : Rabs (IZR (4 * K + s) * bpow radix2 (em - 21)) = (IZR (4 * K + s) * bpow radix2 (em - 21))%R).
  { apply Rabs_pos_eq. apply Rmult_le_pos; [apply IZR_le; lia|apply bpow_ge_0]. }
  destruct (Z_lt_le_dec (4 * K + s) (2 ^ 25)) as [Hs|Hs].
  - rewrite (rnd_scaled _ (em + 4) (2 * K)); [|rewrite Hab; split|lia|].
    + rewrite <- Hfin. replace (em - 21) with ((em + 4 - 24) + -1) by lia.
      rewrite (bpow_plus radix2 (em + 4 - 24) (-1)). change (bpow radix2 (-1)) with (/ 2)%R.
      rewrite !mult_IZR. field.
    + replace (em + 4 - 1) with (24 + (em - 21)) by lia. rewrite bpow_plus.
      apply Rmult_le_compat_r; [apply bpow_ge_0|]. change (bpow radix2 24) with (IZR (2 ^ 24)). apply IZR_le. lia.
    + replace (em + 4) with (25 + (em - 21)) by lia. rewrite bpow_plus.
      apply Rmult_lt_compat_r; [apply bpow_gt_0|]. change (bpow radix2 25) with (IZR (2 ^ 25)). apply IZR_lt. lia.
    + rewrite Rmult_assoc, <- bpow_plus. replace (em - 21 + (24 - (em + 4))) with (-1) by lia.
      change (bpow radix2 (-1)) with (/ 2)%R. apply Znearest_halves. lia.
  - rewrite (rnd_scaled _ (em + 5) K); [|rewrite Hab; split|lia|].
    + rewrite <- Hfin. replace (em - 21) with ((em + 5 - 24) + -2) by lia.
      rewrite (bpow_plus radix2 (em + 5 - 24) (-2)). change (bpow radix2 (-2)) with (/ 4)%R.
      rewrite !mult_IZR. field.
    + replace (em + 5 - 1) with (25 + (em - 21)) by lia. rewrite bpow_plus.
      apply Rmult_le_compat_r; [apply bpow_ge_0|]. change (bpow radix2 25) with (IZR (2 ^ 25)). apply IZR_le. lia.
    + replace (em + 5) with (26 + (em - 21)) by lia. rewrite bpow_plus.
      apply Rmult_lt_compat_r; [apply bpow_gt_0|]. change (bpow radix2 26) with (IZR (2 ^ 26)). apply IZR_lt. lia.
    + rewrite Rmult_assoc, <- bpow_plus. replace (em - 21 + (24 - (em + 5))) with (-2) by lia.
      change (bpow radix2 (-2)) with (/ 4)%R. apply Znearest_quarter. lia.
Qed.

(** ** Quantised lengths *)
Definition rq (t tpb : Z) : R := rnd (rnd (rnd (IZR t) / IZR tpb) * 24).

Lemma pow2_100 n : (0 <= n <= 2 ^ 64)%Z -> (IZR n <= bpow radix2 100)%R.
Proof. intros H. rewrite bpow_Z by lia. apply IZR_le. lia. Qed.

Lemma rnd_le_Z x n : (x <= IZR n)%R -> Z.abs n <= 2 ^ 24 -> (rnd x <= IZR n)%R.
Proof. intros H Hn. rewrite <- (rnd_Z n Hn). now apply rnd_mono. Qed.
Lemma rnd_ge_Z x n : (IZR n <= x)%R -> Z.abs n <= 2 ^ 24 -> (IZR n <= rnd x)%R.
Proof. intros H Hn. rewrite <- (rnd_Z n Hn). now apply rnd_mono. Qed.
Lemma rnd_le_pow x n : (0 <= n <= 100)%Z -> (x <= bpow radix2 n)%R -> (rnd x <= bpow radix2 n)%R.
Proof.
  intros Hn Hx. rewrite <- (rnd_id (bpow radix2 n)); [now apply rnd_mono|].
  apply generic_format_bpow. unfold fexp32, FLT_exp. lia.
Qed.

Lemma quantized_length_real t tpb up : 0 <= t < 2 ^ 32 -> 1 <= tpb <= 65535 ->
  quantized_length t tpb up = Z.min (2 ^ 32 - 1) (if up then Zceil (rq t tpb) else Zfloor (rq t tpb)).
Proof.
  intros Ht Hp. unfold quantized_length.
  assert (Hv1 : fval (f32_of_Z t) (rnd (IZR t))) by (apply fval_of_Z; lia).
  assert (Hv2 : fval (f32_of_Z tpb) (IZR tpb)).
  { replace (IZR tpb) with (rnd (IZR tpb)) by (apply rnd_Z; lia). apply fval_of_Z; lia. }
  assert (Hv24 : fval (f32_of_Z 24) 24).
  { change 24%R with (IZR 24). replace (IZR 24) with (rnd (IZR 24)) by (apply rnd_Z; lia). apply fval_of_Z; lia. }
  assert (Hp1 : (1 <= IZR tpb)%R) by (apply IZR_le; lia).
  assert (Hb1 : (rnd (IZR t) <= bpow radix2 32)%R).
  { apply rnd_le_pow; [lia|]. rewrite bpow_Z by lia. apply IZR_le; lia. }
  assert (Hd : (rnd (IZR t) / IZR tpb <= bpow radix2 32)%R).
  { apply Rle_trans with (2 := Hb1).
    pose proof (rnd_pos (IZR t) ltac:(apply IZR_le; lia)).
    apply Rmult_le_reg_r with (IZR tpb); [lra|]. unfold Rdiv. rewrite Rmult_assoc, Rinv_l by lra. nra. }
  assert (Hv3 := fval_div _ _ _ _ Hv1 Hv2 ltac:(lra)
    ltac:(apply Rle_trans with (1 := Hd), bpow_le; lia)).
  assert (Hb3 : (rnd (rnd (IZR t) / IZR tpb) <= bpow radix2 32)%R) by (apply rnd_le_pow; [lia|exact Hd]).
  assert (Hm : (rnd (rnd (IZR t) / IZR tpb) * 24 <= bpow radix2 100)%R).
  { apply Rle_trans with (bpow radix2 32 * bpow radix2 5)%R.
    - apply Rmult_le_compat; try lra; [eapply fval_pos, Hv3|change (bpow radix2 5) with 32%R; lra].
    - rewrite <- bpow_plus. apply bpow_le. lia. }
  assert (Hv4 := fval_mul _ _ _ _ Hv3 Hv24 Hm). fold (rq t tpb) in Hv4.
  destruct up.
  - rewrite (fval_as_uint 32 _ _ ltac:(lia) (fval_ceil _ _ Hv4)), Zfloor_IZR. reflexivity.
  - rewrite (fval_as_uint 32 _ _ ltac:(lia) (fval_floor _ _ Hv4)), Zfloor_IZR. reflexivity.
Qed.

Lemma div_pos_mono a b c : (0 < c)%R -> (a <= b)%R -> (a / c <= b / c)%R.
Proof. intros Hc H. unfold Rdiv. apply Rmult_le_compat_r; [|exact H]. left. now apply Rinv_0_lt_compat. Qed.

Lemma rq_mono t t' tpb : t <= t' -> 1 <= tpb -> (rq t tpb <= rq t' tpb)%R.
Proof.
  intros H Hp. unfold rq. apply rnd_mono. apply Rmult_le_compat_r; [lra|].
  apply rnd_mono, div_pos_mono; [apply IZR_lt; lia|]. apply rnd_mono, IZR_le, H.
Qed.

Lemma quantized_length_mono t t' tpb up :
  0 <= t <= t' -> t' < 2 ^ 32 -> 1 <= tpb <= 65535 ->
  quantized_length t tpb up <= quantized_length t' tpb up.
Proof.
  intros H H' Hp. rewrite !quantized_length_real by lia.
  pose proof (rq_mono t t' tpb ltac:(lia) ltac:(lia)) as Hm.
  apply Z.min_le_compat_l. destruct up; [now apply Zceil_le|now apply Zfloor_le].
Qed.

Lemma ratio_le t tpb k : 1 <= tpb -> 24 * t <= k * tpb -> (IZR t / IZR tpb <= IZR k / 24)%R.
Proof.
  intros Hp H. assert (0 < IZR tpb)%R by (apply IZR_lt; lia). apply IZR_le in H. rewrite !mult_IZR in H.
  apply Rmult_le_reg_r with (24 * IZR tpb)%R; [lra|].
  replace (IZR t / IZR tpb * (24 * IZR tpb))%R with (24 * IZR t)%R by (field; lra).
  replace (IZR k / 24 * (24 * IZR tpb))%R with (IZR k * IZR tpb)%R by field. exact H.
Qed.
Lemma ratio_ge t tpb k : 1 <= tpb -> k * tpb <= 24 * t -> (IZR k / 24 <= IZR t / IZR tpb)%R.
Proof.
  intros Hp H. assert (0 < IZR tpb)%R by (apply IZR_lt; lia). apply IZR_le in H. rewrite !mult_IZR in H.
  apply Rmult_le_reg_r with (24 * IZR tpb)%R; [lra|].
  replace (IZR t / IZR tpb * (24 * IZR tpb))%R with (24 * IZR t)%R by (field; lra).
  replace (IZR k / 24 * (24 * IZR tpb))%R with (IZR k * IZR tpb)%R by field. exact H.
Qed.

Lemma rq_le t tpb k : 0 <= t <= 2 ^ 24 -> 1 <= tpb -> 0 <= k < 2 ^ 23 -> 24 * t <= k * tpb -> (rq t tpb <= IZR k)%R.
Proof.
  intros Ht Hp Hk H. unfold rq. rewrite (rnd_Z t) by lia. rewrite <- (kahan24 k Hk).
  apply rnd_mono. apply Rmult_le_compat_r; [lra|]. apply rnd_mono. now apply ratio_le.
Qed.
Lemma rq_ge t tpb k : 0 <= t <= 2 ^ 24 -> 1 <= tpb -> 0 <= k < 2 ^ 23 -> k * tpb <= 24 * t -> (IZR k <= rq t tpb)%R.
Proof.
  intros Ht Hp Hk H. unfold rq. rewrite (rnd_Z t) by lia. rewrite <- (kahan24 k Hk).
  apply rnd_mono. apply Rmult_le_compat_r; [lra|]. apply rnd_mono. now apply ratio_ge.
Qed.

(** C05: lengths on the grid. *)
Lemma quantized_grid t tpb k up :
  1 <= tpb <= 65535 -> 0 <= t <= 2 ^ 24 -> 0 <= k < 2 ^ 23 -> 24 * t = k * tpb ->
  quantized_length t tpb up = k.
Proof.
  intros Hp Ht Hk H. rewrite quantized_length_real by lia.
  assert (E : rq t tpb = IZR k).
  { apply Rle_antisym; [apply rq_le|apply rq_ge]; lia. }
  rewrite E. rewrite Zceil_IZR, Zfloor_IZR. destruct up; lia.
Qed.

(** C06: lengths off the grid. *)
Lemma quantized_floor_bound t tpb :
  1 <= tpb <= 65535 -> 0 <= t <= 2 ^ 24 -> 24 * t / tpb < 2 ^ 23 - 1 ->
  24 * t / tpb <= quantized_length t tpb false <= 24 * t / tpb + 1.
Proof.
  intros Hp Ht Hk. rewrite quantized_length_real by lia.
  set (k := 24 * t / tpb) in *.
  assert (Hk1 : k * tpb <= 24 * t /\ 24 * t < (k + 1) * tpb).
  { pose proof (Z.div_mod (24 * t) tpb ltac:(lia)). pose proof (Z.mod_pos_bound (24 * t) tpb ltac:(lia)).
    unfold k. nia. }
  assert (Hk0 : 0 <= k) by (unfold k; apply Z.div_pos; lia).
  pose proof (rq_ge t tpb k ltac:(lia) ltac:(lia) ltac:(lia) ltac:(lia)) as H1.
  pose proof (rq_le t tpb (k + 1) ltac:(lia) ltac:(lia) ltac:(lia) ltac:(lia)) as H2.
  apply Zfloor_le in H1. apply Zfloor_le in H2. rewrite Zfloor_IZR in H1, H2. lia.
Qed.
Lemma quantized_ceil_bound t tpb :
  1 <= tpb <= 65535 -> 0 <= t <= 2 ^ 24 -> 24 * t / tpb < 2 ^ 23 - 1 ->
  (24 * t + tpb - 1) / tpb - 1 <= quantized_length t tpb true <= (24 * t + tpb - 1) / tpb.
Proof.
  intros Hp Ht Hk. rewrite quantized_length_real by lia.
  set (c := (24 * t + tpb - 1) / tpb) in *.
  assert (Hc : (c - 1) * tpb < 24 * t \/ t = 0).
  { destruct (Z.eq_dec t 0); auto. left.
    pose proof (Z.div_mod (24 * t + tpb - 1) tpb ltac:(lia)). pose proof (Z.mod_pos_bound (24 * t + tpb - 1) tpb ltac:(lia)).
    unfold c. nia. }
  assert (Hc2 : 24 * t <= c * tpb).
  { pose proof (Z.div_mod (24 * t + tpb - 1) tpb ltac:(lia)). pose proof (Z.mod_pos_bound (24 * t + tpb - 1) tpb ltac:(lia)).
    unfold c. nia. }
  assert (Hcb : c <= 24 * t / tpb + 1).
  { unfold c. replace (24 * t / tpb + 1) with ((24 * t + 1 * tpb) / tpb) by (rewrite Z.div_add by lia; lia).
    apply Z.div_le_mono; lia. }
  destruct (Z.eq_dec t 0) as [->|Hn].
  { assert (c = 0) by (unfold c; apply Z.div_small; lia).
    assert (E : rq 0 tpb = IZR 0). { apply Rle_antisym; [apply rq_le|apply rq_ge]; lia. }
    rewrite E, Zceil_IZR. lia. }
  destruct Hc as [Hc|Hc]; [|lia].
  assert (Hc1 : 1 <= c) by nia.
  pose proof (rq_ge t tpb (c - 1) ltac:(lia) ltac:(lia) ltac:(lia) ltac:(lia)) as H1.
  pose proof (rq_le t tpb c ltac:(lia) ltac:(lia) ltac:(lia) ltac:(lia)) as H2.
  apply Zceil_le in H1. apply Zceil_le in H2. rewrite Zceil_IZR in H1, H2. lia.
Qed.

(** Exactness for lengths below 2^23 / 24 ticks. *)
Lemma rel_err x : (bpow radix2 (-126) <= x)%R -> (Rabs (rnd x - x) <= bpow radix2 (-24) * x)%R.
Proof.
  intros H. assert (0 < x)%R by (apply Rlt_le_trans with (2 := H); apply bpow_gt_0).
  pose proof (relative_error_N_FLT radix2 (-149) 24 eq_refl (fun x => negb (Z.even x)) x) as E.
  rewrite Rabs_pos_eq in E by lra. specialize (E H).
  replace (bpow radix2 (-24)) with (/ 2 * bpow radix2 (-24 + 1))%R; [exact E|].
  change (-24 + 1) with (-23). replace (-24) with (-23 + -1) by lia. rewrite bpow_plus.
  change (bpow radix2 (-1)) with (/ 2)%R. ring.
Qed.

Lemma rq_close t tpb : 1 <= tpb <= 65535 -> 1 <= t -> 24 * t < 2 ^ 23 ->
  (Rabs (rq t tpb - 24 * IZR t / IZR tpb) < / IZR tpb)%R.
Proof.
  intros Hp Ht Hb. unfold rq. rewrite (rnd_Z t) by lia.
  set (u := bpow radix2 (-24)). assert (Hu : u = (/ 16777216)%R) by reflexivity.
  assert (Hp1 : (1 <= IZR tpb <= 65535)%R) by (split; apply IZR_le; lia).
  assert (Ht1 : (1 <= IZR t)%R) by (apply IZR_le; lia).
  assert (Hb1 : (24 * IZR t <= 8388607)%R) by (rewrite <- mult_IZR; apply IZR_le; lia).
  set (i := (/ IZR tpb)%R). assert (Hi : (0 < i)%R) by (apply Rinv_0_lt_compat; lra).
  assert (Hi2 : (bpow radix2 (-16) <= i)%R).
  { unfold i. change (bpow radix2 (-16)) with (/ 65536)%R. apply Rinv_le; lra. }
  set (x := (IZR t / IZR tpb)%R). assert (Hx : x = (IZR t * i)%R) by reflexivity.
  assert (Hxi : (i <= x)%R) by (rewrite Hx; nra).
  assert (H126 : (bpow radix2 (-126) <= bpow radix2 (-16))%R) by (apply bpow_le; lia).
  pose proof (rel_err x ltac:(lra)) as E1. fold u in E1.
  assert (Hy : (bpow radix2 (-126) <= rnd x * 24)%R).
  { apply Rabs_le_inv in E1. rewrite Hu in E1.
    assert (x / 2 <= rnd x)%R by lra. lra. }
  pose proof (rel_err _ Hy) as E2. fold u in E2.
  apply Rabs_le_inv in E1. apply Rabs_le_inv in E2. rewrite Hu in *.
  replace (24 * IZR t / IZR tpb)%R with (24 * x)%R by (unfold x; field; lra).
  assert (Hxb : (24 * x <= 8388607 * i)%R) by (rewrite Hx; nra).
  apply Rabs_def1; lra.
Qed.

Lemma quantized_floor_exact t tpb :
  1 <= tpb <= 65535 -> 0 <= t -> 24 * t < 2 ^ 23 -> quantized_length t tpb false = 24 * t / tpb.
Proof.
  intros Hp Ht Hb. assert (Hk : 24 * t / tpb <= 24 * t) by (apply Z.div_le_upper_bound; nia).
  destruct (Z.eq_dec t 0) as [->|Hn].
  { rewrite (quantized_grid 0 tpb 0) by lia. rewrite Z.mul_0_r, Z.div_0_l; lia. }
  rewrite quantized_length_real by lia.
  set (k := 24 * t / tpb) in *.
  pose proof (Z.div_mod (24 * t) tpb ltac:(lia)) as Hdm. pose proof (Z.mod_pos_bound (24 * t) tpb ltac:(lia)) as Hm.
  fold k in Hdm.
  assert (Hk0 : 0 <= k) by (unfold k; apply Z.div_pos; lia).
  pose proof (rq_close t tpb Hp ltac:(lia) Hb) as Hc. apply Rabs_lt_inv in Hc.
  assert (Hp1 : (1 <= IZR tpb)%R) by (apply IZR_le; lia).
  assert (Hi : (0 < / IZR tpb)%R) by (apply Rinv_0_lt_compat; lra).
  pose proof (rq_ge t tpb k ltac:(lia) ltac:(lia) ltac:(lia) ltac:(lia)) as H1.
  assert (H2 : (rq t tpb < IZR (k + 1))%R).
  { assert (Hx : (24 * IZR t / IZR tpb <= IZR (k + 1) - / IZR tpb)%R).
    { apply Rmult_le_reg_r with (IZR tpb); [lra|].
      replace (24 * IZR t / IZR tpb * IZR tpb)%R with (IZR (24 * t)) by (rewrite mult_IZR; field; lra).
      replace ((IZR (k + 1) - / IZR tpb) * IZR tpb)%R with (IZR ((k + 1) * tpb - 1))
        by (rewrite minus_IZR, mult_IZR; field; lra).
      apply IZR_le. lia. }
    lra. }
  rewrite (Zfloor_imp k) by (split; auto). lia.
Qed.
Lemma quantized_ceil_exact t tpb :
  1 <= tpb <= 65535 -> 0 <= t -> 24 * t < 2 ^ 23 -> quantized_length t tpb true = (24 * t + tpb - 1) / tpb.
Proof.
  intros Hp Ht Hb.
  destruct (Z.eq_dec t 0) as [->|Hn].
  { rewrite (quantized_grid 0 tpb 0) by lia. rewrite Z.div_small; lia. }
  assert (Hk : (24 * t + tpb - 1) / tpb <= 24 * t) by (apply Z.div_le_upper_bound; nia).
  rewrite quantized_length_real by lia.
  set (c := (24 * t + tpb - 1) / tpb) in *.
  pose proof (Z.div_mod (24 * t + tpb - 1) tpb ltac:(lia)) as Hdm.
  pose proof (Z.mod_pos_bound (24 * t + tpb - 1) tpb ltac:(lia)) as Hm. fold c in Hdm.
  assert (Hc1 : 1 <= c) by nia.
  pose proof (rq_close t tpb Hp ltac:(lia) Hb) as Hc. apply Rabs_lt_inv in Hc.
  assert (Hp1 : (1 <= IZR tpb)%R) by (apply IZR_le; lia).
  assert (Hi : (0 < / IZR tpb)%R) by (apply Rinv_0_lt_compat; lra).
  assert (Hcb : c < 2 ^ 23) by lia.
  pose proof (rq_le t tpb c ltac:(lia) ltac:(lia) ltac:(lia) ltac:(lia)) as H1.
  assert (H2 : (IZR (c - 1) < rq t tpb)%R).
  { assert (Hx : (IZR (c - 1) + / IZR tpb <= 24 * IZR t / IZR tpb)%R).
    { apply Rmult_le_reg_r with (IZR tpb); [lra|].
      replace (24 * IZR t / IZR tpb * IZR tpb)%R with (IZR (24 * t)) by (rewrite mult_IZR; field; lra).
      replace ((IZR (c - 1) + / IZR tpb) * IZR tpb)%R with (IZR ((c - 1) * tpb + 1))
        by (rewrite plus_IZR, mult_IZR; field; lra).
      apply IZR_le. nia. }
    lra. }
  rewrite (Zceil_imp c) by (split; auto). lia.
Qed.

(** ** Statements about [get_duration] *)
From Verif Require Import SplitProofs.

Lemma get_duration_value b t tpb up :
  1 <= tpb <= 65535 -> 0 <= t <= 2 ^ 24 -> 24 * t / tpb < 2 ^ 23 - 1 ->
  get_duration b t tpb up =
  Ok (split_length (quantized_length t tpb up) (quantized_length t tpb up * tpb / 24)).
Proof.
  intros Hp Ht Hk. unfold get_duration. rewrite arith_exact; [reflexivity|].
  pose proof (quantized_nonneg t tpb up) as Hn.
  assert (quantized_length t tpb up <= 24 * t / tpb + 1).
  { destruct up.
    - pose proof (quantized_ceil_bound t tpb Hp Ht Hk).
      assert ((24 * t + tpb - 1) / tpb <= 24 * t / tpb + 1); [|lia].
      replace (24 * t / tpb + 1) with ((24 * t + 1 * tpb) / tpb) by (rewrite Z.div_add by lia; lia).
      apply Z.div_le_mono; lia.
    - pose proof (quantized_floor_bound t tpb Hp Ht Hk). lia. }
  assert (24 * t / tpb * tpb <= 24 * t) by (rewrite Z.mul_comm; apply Z.mul_div_le; lia).
  split; [nia|]. nia.
Qed.

Lemma get_duration_grid b t tpb k up :
  1 <= tpb <= 65535 -> 0 <= t <= 2 ^ 24 -> 0 <= k < 2 ^ 23 - 1 -> 24 * t = k * tpb ->
  exists d, get_duration b t tpb up = Ok d /\ quantized_length t tpb up = k /\ quantized_ticks d = t /\
    (k <= 32512 -> d_length d + 127 * overflow_count d = k).
Proof.
  intros Hp Ht Hk H.
  assert (Hq : quantized_length t tpb up = k) by (apply quantized_grid; lia).
  rewrite get_duration_value; [|lia|lia|].
  2:{ rewrite H, Z.div_mul by lia. lia. }
  rewrite Hq. eexists. split; [reflexivity|]. split; [reflexivity|].
  rewrite <- H, (Z.mul_comm 24), Z.div_mul by lia.
  split.
  - pose proof (split_length_ranges k t ltac:(lia)) as Hr. cbn zeta in Hr. tauto.
  - intros Hk2. pose proof (split_length_spec k t ltac:(lia)) as Hr. cbn zeta in Hr. tauto.
Qed.
Lemma quantized_exact t tpb : 1 <= tpb <= 65535 -> 0 <= t -> 24 * t < 2 ^ 23 ->
  quantized_length t tpb false = 24 * t / tpb /\
  quantized_length t tpb true = (24 * t + tpb - 1) / tpb.
Proof. intros; split; [apply quantized_floor_exact|apply quantized_ceil_exact]; auto. Qed.
Lemma quantized_within t tpb up :
  1 <= tpb <= 65535 -> 0 <= t <= 2 ^ 24 -> 24 * t / tpb < 2 ^ 23 - 1 ->
  Z.abs (quantized_length t tpb up * tpb - 24 * t) < tpb.
Proof.
  intros Hp Ht Hk.
  pose proof (Z.div_mod (24 * t) tpb ltac:(lia)) as D1. pose proof (Z.mod_pos_bound (24 * t) tpb ltac:(lia)) as D2.
  assert (Hk0 : 0 <= 24 * t / tpb) by (apply Z.div_pos; lia).
  destruct (Z.eq_dec (24 * t mod tpb) 0) as [E|E].
  { rewrite (quantized_grid t tpb (24 * t / tpb)); try lia. }
  pose proof (Z.div_mod (24 * t + tpb - 1) tpb ltac:(lia)) as D3.
  pose proof (Z.mod_pos_bound (24 * t + tpb - 1) tpb ltac:(lia)) as D4.
  destruct up.
  - pose proof (quantized_ceil_bound t tpb Hp Ht Hk) as H.
    assert (Hc : (24 * t + tpb - 1) / tpb = 24 * t / tpb + 1).
    { symmetry. apply Z.div_unique with (r := 24 * t mod tpb - 1); lia. }
    rewrite Hc in *. revert H D1 D2 E. clear Hk Hk0 D3 D4 Hc.
    generalize (24 * t / tpb) (24 * t mod tpb) (quantized_length t tpb true). intros. nia.
  - pose proof (quantized_floor_bound t tpb Hp Ht Hk) as H. revert H D1 D2 E. clear Hk Hk0 D3 D4.
    generalize (24 * t / tpb) (24 * t mod tpb) (quantized_length t tpb false). intros. nia.
Qed.
Lemma direction_refuted :
  (exists t tpb, 0 <= t <= 2 ^ 24 /\ 1 <= tpb <= 65535 /\ quantized_length t tpb true * tpb < 24 * t) /\
  (exists t tpb, 0 <= t <= 2 ^ 24 /\ 1 <= tpb <= 65535 /\ quantized_length t tpb false * tpb > 24 * t).
Proof.
  split; [exists 16770646, 65521|exists 16710585, 65521]; (split; [lia|]); (split; [lia|]);
    vm_compute; reflexivity.
Qed.
