(** TempoProofs.v: tempo events (C13). *)
From Coq Require Import ZArith Reals Lia Lra Psatz ZifyBool List.
From Coq Require Import Floats.SpecFloat.
From Flocq Require Import Core.Core IEEE754.BinarySingleNaN Relative.
From Verif Require Import Base F32 ProofLib F32Proofs DurationProofs Messages Command Track.
Open Scope Z_scope.

#[local] Instance Hprec2 : FLX.Prec_gt_0 24 := eq_refl.
#[local] Instance Hmax2 : Prec_lt_emax 24 128 := eq_refl.

Definition N60 := 60000000.
Lemma fval_N60 : fval (f32_of_Z N60) (IZR N60).
Proof.
  replace (IZR N60) with (rnd (IZR N60)); [apply fval_of_Z; unfold N60; lia|].
  apply rnd_id. apply generic_format_FLT. exists (Float radix2 234375 8); cbn [Fnum Fexp].
  - unfold F2R, N60. cbn [Fnum Fexp]. change (bpow radix2 8) with (IZR 256). rewrite <- mult_IZR. reflexivity.
  - change (Zpower radix2 24) with (2 ^ 24). lia.
  - lia.
Qed.

(** The float quotient's ceiling as the program computes it. *)
Definition bpm_float (u : Z) : f32 := f32_ceil (f32_div (f32_of_Z N60) (f32_of_Z u)).
Definition ceil_div (n d : Z) : Z := (n + d - 1) / d.

Lemma bpm_fval u : 1 <= u < 2 ^ 24 -> fval (bpm_float u) (IZR (Zceil (rnd (IZR N60 / IZR u)))).
Proof.
  intros Hu. unfold bpm_float. apply fval_ceil.
  assert (1 <= IZR u)%R by (apply IZR_le; lia).
  apply fval_div; [apply fval_N60| |lra|].
  - replace (IZR u) with (rnd (IZR u)) by (apply rnd_Z; lia). apply fval_of_Z; lia.
  - apply Rle_trans with (IZR N60).
    + assert (0 < IZR N60)%R by (apply IZR_lt; reflexivity).
      apply Rmult_le_reg_r with (IZR u); [lra|]. unfold Rdiv. rewrite Rmult_assoc, Rinv_l by lra. nra.
    + apply pow2_100. unfold N60; lia.
Qed.

(** Divisors of 60000000 - r for r = 1, 2, 3: both factors of each are checked by computation. *)
Definition bpm_ok (u : Z) : bool :=
  f32_as_uint 32 (bpm_float u) =? ceil_div N60 u.
Definition divisor_check (d : Z) : bool :=
  (d =? 0) ||
  forallb (fun r => if (N60 - r) mod d =? 0
                    then bpm_ok d && ((2 ^ 24 <=? (N60 - r) / d) || bpm_ok ((N60 - r) / d))
                    else true) [1; 2; 3].
Lemma divisor_sweep : forallb divisor_check (zrange (Z.to_nat 7747)) = true.
Proof. vm_compute. reflexivity. Qed.

Lemma bpm_ok_real u : 1 <= u < 2 ^ 24 -> bpm_ok u = true -> Zceil (rnd (IZR N60 / IZR u)) = ceil_div N60 u.
Proof.
  intros Hu H. unfold bpm_ok in H. apply Z.eqb_eq in H.
  rewrite (fval_as_uint 32 _ _ ltac:(lia) (bpm_fval u Hu)), Zfloor_IZR in H.
  assert (ceil_div N60 u < 2 ^ 32 - 1).
  { unfold ceil_div. apply Z.div_lt_upper_bound; unfold N60; lia. }
  lia.
Qed.

Lemma ceil_div_spec n d : 0 < d -> (ceil_div n d - 1) * d < n <= ceil_div n d * d.
Proof.
  intros Hd. unfold ceil_div. pose proof (Z.div_mod (n + d - 1) d ltac:(lia)).
  pose proof (Z.mod_pos_bound (n + d - 1) d Hd). nia.
Qed.

Lemma half_ulp_lower x n : (IZR n < x)%R -> 1 <= n < 2 ^ 24 -> (IZR n + IZR n * / 16777216 < x)%R ->
  (IZR n < rnd x)%R.
Proof.
  (* the midpoint above n is below n + n * 2^-24 *)
  intros Hx Hn Hgap.
  destruct (Rlt_or_le (IZR n) (rnd x)) as [|Hle]; auto. exfalso.
  assert (Hge : (IZR n <= rnd x)%R) by (apply rnd_ge_Z; [lra|lia]).
  assert (E : rnd x = IZR n) by lra.
  assert (Hn1 : (1 <= IZR n)%R) by (apply IZR_le; lia).
  pose proof (error_le_half_ulp_round radix2 fexp32 (fun z => negb (Z.even z)) x) as Hu.
  fold (rnd x) in Hu. rewrite E in Hu.
  assert (Hulp : (ulp radix2 fexp32 (IZR n) <= IZR n * bpow radix2 (-23))%R).
  { pose proof (ulp_FLT_le radix2 (-149) 24 (IZR n)) as H. rewrite Rabs_pos_eq in H by lra.
    change (1 - 24) with (-23) in H. apply H. change (-149 + 24 - 1) with (-126).
    apply Rle_trans with (bpow radix2 0); [apply bpow_le; lia|exact Hn1]. }
  assert (H23 : bpow radix2 (-23) = (/ 8388608)%R) by reflexivity. rewrite H23 in Hulp.
  apply Rabs_le_inv in Hu. lra.
Qed.

Lemma bpm_exact u : 1 <= u < 2 ^ 24 -> Zceil (rnd (IZR N60 / IZR u)) = ceil_div N60 u.
Proof.
  intros Hu. set (c := ceil_div N60 u).
  pose proof (ceil_div_spec N60 u ltac:(lia)) as Hc. fold c in Hc.
  destruct (Z_le_gt_dec u 3) as [Hsmall|Hbig].
  { assert (E : u = 1 \/ u = 2 \/ u = 3) by lia.
    apply bpm_ok_real; auto. destruct E as [->|[->| ->]]; vm_compute; reflexivity. }
  assert (Hu1 : (1 <= IZR u)%R) by (apply IZR_le; lia).
  assert (Hc1 : 1 <= c) by (unfold N60 in *; nia).
  assert (Hc2 : c <= 15000000).
  { unfold c, ceil_div. apply Z.lt_succ_r. apply Z.div_lt_upper_bound; [lia|]. unfold N60; nia. }
  assert (Hx1 : (IZR (c - 1) < IZR N60 / IZR u)%R).
  { apply Rmult_lt_reg_r with (IZR u); [lra|]. unfold Rdiv. rewrite Rmult_assoc, Rinv_l, Rmult_1_r by lra.
    rewrite <- mult_IZR. apply IZR_lt. lia. }
  assert (Hx2 : (IZR N60 / IZR u <= IZR c)%R).
  { apply Rmult_le_reg_r with (IZR u); [lra|]. unfold Rdiv. rewrite Rmult_assoc, Rinv_l, Rmult_1_r by lra.
    rewrite <- mult_IZR. apply IZR_le. lia. }
  assert (Hup : (rnd (IZR N60 / IZR u) <= IZR c)%R) by (apply rnd_le_Z; [exact Hx2|lia]).
  set (k := c - 1) in *. set (r := N60 - k * u).
  assert (Hr : 1 <= r <= u) by (unfold r; lia).
  destruct (Z_le_gt_dec r 3) as [Hr3|Hr3].
  - (* u divides 60000000 - r *)
    apply bpm_ok_real; auto.
    destruct (Z.eq_dec k 0) as [Hk0|Hk0].
    { (* u >= N60: impossible for 24 bits *) unfold r, N60 in *; lia. }
    assert (Hku : k * u = N60 - r) by (unfold r; lia).
    assert (Hkpos : 1 <= k) by lia.
    destruct (Z_le_gt_dec u 7746) as [Hlow|Hhigh].
    + pose proof (sweep1 (Z.to_nat 7747) divisor_check divisor_sweep u ltac:(lia)) as Hs.
      unfold divisor_check in Hs. apply orb_prop in Hs. destruct Hs as [Hs|Hs]; [lia|].
      rewrite forallb_forall in Hs. assert (Hin : In r [1; 2; 3]) by (clear - Hr Hr3; clearbody r; cbn [In]; lia).
      specialize (Hs r Hin). rewrite <- Hku, Z.mod_mul in Hs by lia. cbn [Z.eqb] in Hs.
      apply andb_prop in Hs. apply Hs.
    + assert (Hklow : k <= 7746) by (unfold N60 in *; nia).
      pose proof (sweep1 (Z.to_nat 7747) divisor_check divisor_sweep k ltac:(lia)) as Hs.
      unfold divisor_check in Hs. apply orb_prop in Hs. destruct Hs as [Hs|Hs]; [lia|].
      rewrite forallb_forall in Hs. assert (Hin : In r [1; 2; 3]) by (clear - Hr Hr3; clearbody r; cbn [In]; lia).
      specialize (Hs r Hin). rewrite <- Hku in Hs. rewrite (Z.mul_comm k u), Z.mod_mul, Z.div_mul in Hs by lia.
      cbn [Z.eqb] in Hs. apply andb_prop in Hs. destruct Hs as [_ Hs]. apply orb_prop in Hs.
      destruct Hs as [Hs|Hs]; [lia|exact Hs].
  - (* the gap above k exceeds half an ulp *)
    destruct (Z.eq_dec k 0) as [Hk0|Hk0].
    { unfold r, N60 in *; lia. }
    assert (Hlow : (IZR k < rnd (IZR N60 / IZR u))%R).
    { apply half_ulp_lower; [exact Hx1|lia|].
      apply Rmult_lt_reg_r with (IZR u); [lra|].
      replace (IZR N60 / IZR u * IZR u)%R with (IZR N60) by (field; lra).
      replace ((IZR k + IZR k * / 16777216) * IZR u)%R with (IZR (k * u) * (1 + / 16777216))%R
        by (rewrite mult_IZR; ring).
      replace (k * u) with (N60 - r) by (unfold r; lia).
      assert (4 <= IZR r)%R by (apply IZR_le; lia). rewrite minus_IZR. unfold N60. lra. }
    apply Zceil_imp. fold k. split; auto.
Qed.

(** Multiplying by an arbitrary non-negative finite factor and casting to a byte. *)
Lemma mul_as_u8 x y v w : fval x v -> fval y w ->
  f32_as_uint 8 (f32_mul x y) = Z.min 255 (Zfloor (rnd (v * w))).
Proof.
  intros Hx Hy. pose proof (fval_pos _ _ Hx) as Hv. pose proof (fval_pos _ _ Hy) as Hw.
  destruct (Rlt_or_le (Rabs (rnd (v * w))) (bpow radix2 128)) as [Hlt|Hge].
  - assert (Hm : fval (f32_mul x y) (rnd (v * w))).
    { destruct Hx as (f & -> & Ff & Sf & Vf), Hy as (g & -> & Fg & Sg & Vg).
      unfold f32_mul. rewrite mul_equiv. exists (Bmult mode_NE f g). split; [reflexivity|].
      pose proof (Bmult_correct 24 128 Hprec2 Hmax2 mode_NE f g) as H. rewrite Vf, Vg in H.
      change (round radix2 (SpecFloat.fexp 24 128) (round_mode mode_NE) (v * w)) with (rnd (v * w)) in H.
      rewrite Rlt_bool_true in H by exact Hlt.
      destruct H as (H1 & H2 & H3). rewrite Ff, Fg in H2. split; [exact H2|]. split; [|exact H1].
      rewrite H3; [now rewrite Sf, Sg|]. destruct (Bmult mode_NE f g); cbn in *; congruence. }
    rewrite (fval_as_uint 8 _ _ ltac:(lia) Hm). reflexivity.
  - assert (Hinf : f32_mul x y = S754_infinity false).
    { destruct Hx as (f & -> & Ff & Sf & Vf), Hy as (g & -> & Fg & Sg & Vg).
      unfold f32_mul. rewrite mul_equiv.
      pose proof (Bmult_correct 24 128 Hprec2 Hmax2 mode_NE f g) as H. rewrite Vf, Vg in H.
      change (round radix2 (SpecFloat.fexp 24 128) (round_mode mode_NE) (v * w)) with (rnd (v * w)) in H.
      rewrite Rlt_bool_false in H by exact Hge. etransitivity; [exact H|]. rewrite Sf, Sg. reflexivity. }
    rewrite Hinf. cbn [f32_as_uint]. rewrite Rabs_pos_eq in Hge by (apply rnd_pos, Rmult_le_pos; auto).
    assert (255 <= Zfloor (rnd (v * w))).
    { apply Zfloor_lub. apply Rle_trans with (2 := Hge). rewrite bpow_Z by lia. apply IZR_le. lia. }
    change (2 ^ 8 - 1) with 255. lia.
Qed.

Lemma tempo_byte_value u tf F : 1 <= u < 2 ^ 24 -> fval tf F ->
  tempo_byte u tf = Z.min 255 (Zfloor (rnd (IZR (ceil_div N60 u) * F))).
Proof.
  intros Hu Hf. unfold tempo_byte. change (f32_of_Z 60000000) with (f32_of_Z N60).
  fold (bpm_float u). rewrite (mul_as_u8 _ _ _ _ (bpm_fval u Hu) Hf). now rewrite bpm_exact.
Qed.

Lemma tempo_byte_zero tf F : fval tf F -> tempo_byte 0 tf = if Req_EM_T F 0 then 0 else 255.
Proof.
  intros Hf. unfold tempo_byte.
  assert (E : f32_ceil (f32_div (f32_of_Z 60000000) (f32_of_Z 0)) = S754_infinity false) by (vm_compute; reflexivity).
  rewrite E. destruct Hf as (f & -> & Ff & Sf & Vf). destruct f as [s|s| |s m e Hb]; cbn in Ff, Sf; try discriminate.
  - cbn in Vf. subst F. destruct (Req_EM_T 0 0); [reflexivity|congruence].
  - subst s. cbn. destruct (Req_EM_T F 0) as [H0|]; [|reflexivity]. exfalso.
    assert (0 < F)%R; [|lra]. rewrite <- Vf. apply F2R_gt_0. reflexivity.
Qed.

Lemma ceil_div_mono n d d' : 0 <= n -> 0 < d <= d' -> ceil_div n d' <= ceil_div n d.
Proof.
  intros Hn Hd. pose proof (ceil_div_spec n d ltac:(lia)). pose proof (ceil_div_spec n d' ltac:(lia)).
  assert (0 <= ceil_div n d) by (unfold ceil_div; apply Z.div_pos; lia). nia.
Qed.

Lemma tempo_byte_mono u u' tf F : 0 <= u <= u' -> u' < 2 ^ 24 -> fval tf F ->
  tempo_byte u' tf <= tempo_byte u tf.
Proof.
  intros Hu Hu' Hf. pose proof (fval_pos _ _ Hf) as HF.
  destruct (Z.eq_dec u' 0) as [E|E]; [assert (u = 0) by lia; subst; lia|].
  rewrite (tempo_byte_value u' tf F) by (auto; lia).
  destruct (Z.eq_dec u 0) as [->|E0].
  - rewrite (tempo_byte_zero tf F Hf). destruct (Req_EM_T F 0) as [->|]; [|lia].
    rewrite Rmult_0_r, rnd_0, Zfloor_IZR. lia.
  - rewrite (tempo_byte_value u tf F) by (auto; lia). apply Z.min_le_compat_l.
    apply Zfloor_le, rnd_mono. apply Rmult_le_compat_r; auto. apply IZR_le.
    apply ceil_div_mono; unfold N60; lia.
Qed.

Lemma tempo_byte_range u tf : 0 <= tempo_byte u tf <= 255.
Proof.
  unfold tempo_byte. generalize (f32_mul (f32_ceil (f32_div (f32_of_Z 60000000) (f32_of_Z u))) tf).
  intros x. destruct x as [s|s| |s m e]; cbn [f32_as_uint]; try (destruct s); try (cbn; lia).
  change (2 ^ 8 - 1) with 255. split; [|lia]. apply Z.min_glb; [lia|].
  destruct (0 <=? e) eqn:E.
  - assert (0 < 2 ^ e) by (apply Z.pow_pos_nonneg; lia). nia.
  - apply Z.div_pos; [lia|]. apply Z.pow_pos_nonneg; lia.
Qed.

Lemma tempo_event b tpb tf s delta data t :
  (3 <= length data)%nat ->
  exists d0 d1 d2 rest, data = d0 :: d1 :: d2 :: rest /\
  track_step b tpb tf s (MetaEvent delta SetTempo data, t) =
  Ok (set_commands s (commands s ++ [mk_pcmd None None None (Tempo (tempo_byte (d0 * 65536 + d1 * 256 + d2) tf))])).
Proof.
  destruct data as [|d0 [|d1 [|d2 rest]]]; cbn [length]; intros H; try lia.
  exists d0, d1, d2, rest. split; reflexivity.
Qed.
Lemma tempo_event_short b tpb tf s delta data t :
  (length data < 3)%nat -> track_step b tpb tf s (MetaEvent delta SetTempo data, t) = Panic PIndex.
Proof. destruct data as [|d0 [|d1 [|d2 rest]]]; cbn [length]; intros H; try lia; reflexivity. Qed.

(** A factor in the terms of SpecFloat. *)
Lemma fval_finite_intro m e : SpecFloat.bounded 24 128 m e = true ->
  fval (S754_finite false m e) (IZR (Zpos m) * bpow radix2 e).
Proof. intros H. exists (B754_finite false m e H). repeat split. Qed.
Lemma fval_zero : fval (S754_zero false) 0.
Proof. exists (B754_zero false). repeat split. Qed.

From Verif Require Import SpecF32.
Lemma nonneg_float_fval x v : nonneg_float x v -> fval x v.
Proof.
  intros [[-> ->]|(m & e & -> & Hb & ->)]; [apply fval_zero|apply fval_finite_intro, Hb].
Qed.
Lemma tempo_value u tf F : 1 <= u < 2 ^ 24 -> nonneg_float tf F ->
  tempo_byte u tf = Z.min 255 (Zfloor (single_round (IZR ((60000000 + u - 1) / u) * F))).
Proof. intros Hu Hf. exact (tempo_byte_value u tf F Hu (nonneg_float_fval _ _ Hf)). Qed.
Lemma tempo_zero tf F : nonneg_float tf F ->
  (F = 0%R -> tempo_byte 0 tf = 0) /\ (F <> 0%R -> tempo_byte 0 tf = 255).
Proof.
  intros Hf. rewrite (tempo_byte_zero tf F (nonneg_float_fval _ _ Hf)).
  destruct (Req_EM_T F 0); split; intros; congruence.
Qed.
Lemma tempo_mono u u' tf F : 0 <= u <= u' -> u' < 2 ^ 24 -> nonneg_float tf F ->
  tempo_byte u' tf <= tempo_byte u tf.
Proof. intros H H' Hf. exact (tempo_byte_mono u u' tf F H H' (nonneg_float_fval _ _ Hf)). Qed.
