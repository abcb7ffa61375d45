(** F32Proofs.v: the single-precision operations of F32.v compute correctly rounded real results
    (through Flocq), floor/ceil/casts are exact, and the consequences used for durations and tempo. *)
From Coq Require Import ZArith Reals Lia Lra Psatz ZifyBool.
From Coq Require Import Floats.SpecFloat.
From Flocq Require Import Core.Core IEEE754.BinarySingleNaN Relative.
From Verif Require Import Base F32 ProofLib.
Open Scope Z_scope.

#[local] Instance Hprec : FLX.Prec_gt_0 24 := eq_refl.
#[local] Instance Hmax : Prec_lt_emax 24 128 := eq_refl.

Definition fexp32 := FLT_exp (-149) 24.
Definition rnd (x : R) : R := round radix2 fexp32 ZnearestE x.
#[local] Instance fexp32_valid : Valid_exp fexp32 := FLT_exp_valid (-149) 24.
#[local] Instance fexp32_mono : Monotone_exp fexp32 := FLT_exp_monotone (-149) 24.

(** ** Equivalence of the standard library's executable operations with Flocq's. *)
Lemma round_nearest_even_equiv s m l : round_nearest_even m l = choice_mode mode_NE s m l.
Proof.
  destruct l as [|c]; [reflexivity|]. destruct c; try reflexivity.
  cbn. unfold Round.cond_incr. destruct (Z.even m); reflexivity.
Qed.
Lemma binary_round_aux_equiv sx mx ex lx :
  SpecFloat.binary_round_aux 24 128 sx mx ex lx = binary_round_aux 24 128 mode_NE sx mx ex lx.
Proof.
  unfold SpecFloat.binary_round_aux, binary_round_aux.
  set (mrse' := shr_fexp _ _ _ _ _). destruct mrse' as [mrs' e'].
  now rewrite (round_nearest_even_equiv sx).
Qed.
Lemma binary_round_equiv s m e : SpecFloat.binary_round 24 128 s m e = binary_round 24 128 mode_NE s m e.
Proof.
  unfold SpecFloat.binary_round, binary_round, shl_align_fexp.
  set (mez := shl_align _ _ _). destruct mez as [mz ez]. apply binary_round_aux_equiv.
Qed.
Lemma binary_normalize_equiv m e sz :
  SpecFloat.binary_normalize 24 128 m e sz = B2SF (binary_normalize 24 128 Hprec Hmax mode_NE m e sz).
Proof.
  destruct m as [|p|p]; [reflexivity| |]; cbn; rewrite B2SF_SF2B; apply binary_round_equiv.
Qed.
Lemma mul_equiv (x y : binary_float 24 128) : SFmul 24 128 (B2SF x) (B2SF y) = B2SF (Bmult mode_NE x y).
Proof.
  destruct x as [sx|sx| |sx mx ex Bx]; destruct y as [sy|sy| |sy my ey By]; try reflexivity.
  cbn [B2SF SFmul Bmult]. rewrite B2SF_SF2B. apply binary_round_aux_equiv.
Qed.
Lemma div_equiv (x y : binary_float 24 128) : SFdiv 24 128 (B2SF x) (B2SF y) = B2SF (Bdiv mode_NE x y).
Proof.
  destruct x as [sx|sx| |sx mx ex Bx]; destruct y as [sy|sy| |sy my ey By]; try reflexivity.
  cbn [B2SF SFdiv Bdiv]. rewrite B2SF_SF2B.
  set (melz := SFdiv_core_binary _ _ _ _ _ _). destruct melz as [[mz ez] lz].
  apply binary_round_aux_equiv.
Qed.

(** ** Non-negative finite floats and their value *)
Definition fval (x : f32) (v : R) : Prop :=
  exists f : binary_float 24 128, x = B2SF f /\ is_finite f = true /\ Bsign f = false /\ B2R f = v.

Lemma fval_pos x v : fval x v -> (0 <= v)%R.
Proof.
  intros (f & -> & Hf & Hs & <-). destruct f; cbn in *; try discriminate; try lra.
  subst s. apply F2R_ge_0. cbn. lia.
Qed.
Lemma fval_format x v : fval x v -> generic_format radix2 fexp32 v.
Proof. intros (f & -> & _ & _ & <-). apply (generic_format_B2R 24 128). Qed.
Lemma fval_unique x v w : fval x v -> fval x w -> v = w.
Proof. intros (f & -> & _ & _ & <-) (g & E & _ & _ & <-). apply B2SF_inj in E. now subst. Qed.

Lemma rnd_mono x y : (x <= y)%R -> (rnd x <= rnd y)%R.
Proof. intros H. apply round_le; auto with typeclass_instances. Qed.
Lemma rnd_id x : generic_format radix2 fexp32 x -> rnd x = x.
Proof. intros H. apply round_generic; auto with typeclass_instances. Qed.
Lemma rnd_0 : rnd 0 = 0%R.
Proof. apply round_0; auto with typeclass_instances. Qed.
Lemma rnd_pos x : (0 <= x)%R -> (0 <= rnd x)%R.
Proof. intros H. rewrite <- rnd_0. now apply rnd_mono. Qed.

Lemma format_Z n : Z.abs n <= 2 ^ 24 -> generic_format radix2 fexp32 (IZR n).
Proof.
  intros H. destruct (Z.eq_dec (Z.abs n) (2 ^ 24)) as [E|E].
  - assert (Hb : generic_format radix2 fexp32 (bpow radix2 24)).
    { apply generic_format_bpow. unfold fexp32, FLT_exp. lia. }
    assert (HZ : bpow radix2 24 = IZR (2 ^ 24)) by reflexivity.
    rewrite HZ in Hb. destruct (Z.abs_spec n) as [[_ Hn]|[_ Hn]].
    + rewrite Hn in E. now rewrite E.
    + replace n with (- 2 ^ 24) by lia. rewrite opp_IZR. now apply generic_format_opp.
  - apply generic_format_FLT. exists (Float radix2 n 0); cbn [Fnum Fexp].
    + unfold F2R; cbn. now rewrite Rmult_1_r.
    + change (Zpower radix2 24) with (2 ^ 24). lia.
    + lia.
Qed.
Lemma rnd_Z n : Z.abs n <= 2 ^ 24 -> rnd (IZR n) = IZR n.
Proof. intros H. apply rnd_id, format_Z, H. Qed.

Lemma bpow_Z n : (0 <= n)%Z -> bpow radix2 n = IZR (2 ^ n).
Proof. intros H. rewrite IZR_Zpower_pos || idtac. unfold bpow. destruct n; try lia; reflexivity. Qed.

Lemma rnd_lt_max x n : (0 <= n < 128)%Z -> (0 <= x <= bpow radix2 n)%R -> (Rabs (rnd x) < bpow radix2 128)%R.
Proof.
  intros Hn [H0 H1]. rewrite Rabs_pos_eq by now apply rnd_pos.
  apply Rle_lt_trans with (bpow radix2 n).
  - rewrite <- (rnd_id (bpow radix2 n)). now apply rnd_mono.
    apply generic_format_bpow. unfold fexp32, FLT_exp. lia.
  - apply bpow_lt. lia.
Qed.

Lemma fval_of_Z n : (0 <= n < 2 ^ 64)%Z -> fval (f32_of_Z n) (rnd (IZR n)).
Proof.
  intros Hn. unfold f32_of_Z. rewrite binary_normalize_equiv.
  pose proof (binary_normalize_correct 24 128 Hprec Hmax mode_NE n 0 false) as H.
  cbn zeta in H. unfold F2R in H. cbn [Fnum Fexp bpow] in H. rewrite Rmult_1_r in H.
  change (round radix2 (SpecFloat.fexp 24 128) (round_mode mode_NE) (IZR n)) with (rnd (IZR n)) in H.
  rewrite Rlt_bool_true in H.
  - destruct H as (H1 & H2 & H3). eexists. split; [reflexivity|]. split; [exact H2|]. split; [|exact H1].
    rewrite H3. destruct (Rcompare_spec (IZR n) 0) as [Hc|Hc|Hc]; try reflexivity.
    exfalso. apply lt_IZR in Hc. lia.
  - apply rnd_lt_max with 64; [lia|]. split; [apply IZR_le; lia|]. rewrite bpow_Z by lia. apply IZR_le; lia.
Qed.

Lemma fval_div x y v w : fval x v -> fval y w -> (0 < w)%R -> (v / w <= bpow radix2 100)%R ->
  fval (f32_div x y) (rnd (v / w)).
Proof.
  intros Hx Hy Hw Hb. pose proof (fval_pos _ _ Hx) as Hv.
  destruct Hx as (f & -> & Ff & Sf & Vf), Hy as (g & -> & Fg & Sg & Vg).
  unfold f32_div. rewrite div_equiv. exists (Bdiv mode_NE f g). split; [reflexivity|].
  pose proof (Bdiv_correct 24 128 Hprec Hmax mode_NE f g) as H.
  rewrite Vf, Vg in H. specialize (H ltac:(lra)).
  change (round radix2 (SpecFloat.fexp 24 128) (round_mode mode_NE) (v / w)) with (rnd (v / w)) in H.
  rewrite Rlt_bool_true in H.
  - destruct H as (H1 & H2 & H3). rewrite Ff in H2. split; [exact H2|]. split; [|exact H1].
    rewrite H3; [now rewrite Sf, Sg|]. destruct (Bdiv mode_NE f g); cbn in *; congruence.
  - apply rnd_lt_max with 100; [lia|]. split; auto. apply Rle_mult_inv_pos; auto.
Qed.

Lemma fval_mul x y v w : fval x v -> fval y w -> (v * w <= bpow radix2 100)%R ->
  fval (f32_mul x y) (rnd (v * w)).
Proof.
  intros Hx Hy Hb. pose proof (fval_pos _ _ Hx) as Hv. pose proof (fval_pos _ _ Hy) as Hw.
  destruct Hx as (f & -> & Ff & Sf & Vf), Hy as (g & -> & Fg & Sg & Vg).
  unfold f32_mul. rewrite mul_equiv. exists (Bmult mode_NE f g). split; [reflexivity|].
  pose proof (Bmult_correct 24 128 Hprec Hmax mode_NE f g) as H.
  rewrite Vf, Vg in H.
  change (round radix2 (SpecFloat.fexp 24 128) (round_mode mode_NE) (v * w)) with (rnd (v * w)) in H.
  rewrite Rlt_bool_true in H.
  - destruct H as (H1 & H2 & H3). rewrite Ff, Fg in H2. split; [exact H2|]. split; [|exact H1].
    rewrite H3; [now rewrite Sf, Sg|]. destruct (Bmult mode_NE f g); cbn in *; congruence.
  - apply rnd_lt_max with 100; [lia|]. split; auto. now apply Rmult_le_pos.
Qed.

(** ** Rounding to integers and casts *)
Lemma fval_finite m e v : fval (S754_finite false m e) v ->
  v = (IZR (Zpos m) * bpow radix2 e)%R /\ (Zpos m < 2 ^ 24)%Z.
Proof.
  intros (f & E & _ & _ & <-). destruct f as [| | |s m' e' Hb]; try discriminate.
  cbn in E. injection E as <- <- <-. split; [reflexivity|].
  apply andb_prop in Hb. destruct Hb as [Hc _]. unfold canonical_mantissa in Hc.
  apply Zeq_bool_eq in Hc. unfold SpecFloat.fexp, emin in Hc.
  assert (Hd : Zpos (digits2_pos m) <= 24) by lia.
  rewrite Zpos_digits2_pos in Hd.
  assert (H := Zdigits_correct radix2 (Zpos m)). rewrite Z.abs_eq in H by lia.
  destruct H as [_ H]. eapply Z.lt_le_trans; [exact H|].
  change (Zpower radix2 (Zdigits radix2 (Z.pos m))) with (2 ^ (Zdigits radix2 (Z.pos m))).
  apply Z.pow_le_mono_r; lia.
Qed.

Lemma fval_norm q : (0 <= q <= 2 ^ 24)%Z -> fval (SpecFloat.binary_normalize 24 128 q 0 false) (IZR q).
Proof.
  intros H. replace (IZR q) with (rnd (IZR q)) by (apply rnd_Z; lia).
  apply (fval_of_Z q). lia.
Qed.

Lemma Zfloor_scaled m e : (0 < e)%Z -> Zfloor (IZR m * bpow radix2 (- e)) = (m / 2 ^ e)%Z.
Proof.
  intros He. rewrite bpow_opp, bpow_Z by lia. apply (Zfloor_div m (2 ^ e)).
  apply Z.pow_nonzero; lia.
Qed.
Lemma Zceil_scaled m e : (0 < e)%Z -> Zceil (IZR m * bpow radix2 (- e)) = (- ((- m) / 2 ^ e))%Z.
Proof.
  intros He. unfold Zceil. f_equal. rewrite <- Zfloor_scaled by auto. f_equal.
  rewrite opp_IZR. ring.
Qed.

Lemma int_scaled m e : (0 <= e)%Z -> (IZR m * bpow radix2 e = IZR (m * 2 ^ e))%R.
Proof. intros He. rewrite bpow_Z by auto. now rewrite <- mult_IZR. Qed.

Lemma fval_floor x v : fval x v -> fval (f32_floor x) (IZR (Zfloor v)).
Proof.
  intros H. destruct x as [s|s| |s m e].
  - assert (v = 0%R) as -> by (destruct H as (f & E & _ & _ & <-); destruct f; try discriminate; reflexivity).
    rewrite Zfloor_IZR. exact H.
  - destruct H as (f & E & Hf & _). destruct f; discriminate.
  - destruct H as (f & E & Hf & _). destruct f; discriminate.
  - assert (s = false) as -> by (destruct H as (f & E & _ & Hs & _); destruct f; try discriminate; cbn in E, Hs; congruence).
    destruct (fval_finite _ _ _ H) as [-> Hm]. unfold f32_floor, f32_round_int.
    destruct (0 <=? e) eqn:E.
    + rewrite int_scaled by lia. rewrite Zfloor_IZR. rewrite <- int_scaled by lia. exact H.
    + replace e with (- - e) at 2 by lia. rewrite Zfloor_scaled by lia.
      apply fval_norm. split; [apply Z.div_pos; lia|].
      apply Z.div_le_upper_bound; [lia|]. nia.
Qed.
Lemma fval_ceil x v : fval x v -> fval (f32_ceil x) (IZR (Zceil v)).
Proof.
  intros H. destruct x as [s|s| |s m e].
  - assert (v = 0%R) as -> by (destruct H as (f & E & _ & _ & <-); destruct f; try discriminate; reflexivity).
    rewrite Zceil_IZR. exact H.
  - destruct H as (f & E & Hf & _). destruct f; discriminate.
  - destruct H as (f & E & Hf & _). destruct f; discriminate.
  - assert (s = false) as -> by (destruct H as (f & E & _ & Hs & _); destruct f; try discriminate; cbn in E, Hs; congruence).
    destruct (fval_finite _ _ _ H) as [-> Hm]. unfold f32_ceil, f32_round_int.
    destruct (0 <=? e) eqn:E.
    + rewrite int_scaled by lia. rewrite Zceil_IZR. rewrite <- int_scaled by lia. exact H.
    + replace e with (- - e) at 2 by lia. rewrite Zceil_scaled by lia.
      apply fval_norm.
      assert (Hp : 0 < 2 ^ (- e)) by (apply Z.pow_pos_nonneg; lia).
      generalize dependent (2 ^ (- e)); intros d Hd.
      assert (Hq : - 2 ^ 24 <= - Z.pos m / d).
      { apply Z.div_le_lower_bound; [lia|]. nia. }
      assert (Hr : - Z.pos m / d <= 0) by (apply Z.div_le_upper_bound; lia). lia.
Qed.

Lemma fval_as_uint bits x v : (0 <= bits)%Z -> fval x v -> f32_as_uint bits x = Z.min (2 ^ bits - 1) (Zfloor v).
Proof.
  intros Hb H. assert (0 < 2 ^ bits) by (apply Z.pow_pos_nonneg; lia). destruct x as [s|s| |s m e].
  - assert (v = 0%R) as -> by (destruct H as (f & E & _ & _ & <-); destruct f; try discriminate; reflexivity).
    rewrite Zfloor_IZR. cbn [f32_as_uint]. lia.
  - destruct H as (f & E & Hf & _). destruct f; discriminate.
  - destruct H as (f & E & Hf & _). destruct f; discriminate.
  - assert (s = false) as -> by (destruct H as (f & E & _ & Hs & _); destruct f; try discriminate; cbn in E, Hs; congruence).
    destruct (fval_finite _ _ _ H) as [-> Hm]. cbn [f32_as_uint]. f_equal.
    destruct (0 <=? e) eqn:E.
    + rewrite int_scaled by lia. now rewrite Zfloor_IZR.
    + replace e with (- - e) at 2 by lia. now rewrite Zfloor_scaled by lia.
Qed.
