(** FactorProofs.v: the numbers that tempo factors in a manifest stand for. *)
From Coq Require Import ZArith Reals Lia Lra List String.
From Coq Require Import Floats.SpecFloat.
From Flocq Require Import Core.Core IEEE754.BinarySingleNaN.
From Verif Require Import Base F32 ProofLib F32Proofs SpecF32 Manifest.
Import ListNotations.
Open Scope Z_scope.

Lemma round_aux_any prec emax sx mx ex lx :
  SpecFloat.binary_round_aux prec emax sx mx ex lx = binary_round_aux prec emax mode_NE sx mx ex lx.
Proof.
  unfold SpecFloat.binary_round_aux, binary_round_aux.
  set (mrse' := shr_fexp _ _ _ _ _). destruct mrse' as [mrs' e'].
  now rewrite (round_nearest_even_equiv sx).
Qed.
Lemma normalize_any prec emax (H1 : FLX.Prec_gt_0 prec) (H2 : Prec_lt_emax prec emax) m e sz :
  SpecFloat.binary_normalize prec emax m e sz = B2SF (binary_normalize prec emax H1 H2 mode_NE m e sz).
Proof.
  destruct m as [|p|p]; [reflexivity| |]; cbn; rewrite B2SF_SF2B;
  unfold SpecFloat.binary_round, binary_round, shl_align_fexp; set (mez := shl_align _ _ _); destruct mez as [mz ez]; apply round_aux_any.
Qed.

(** The value of a float that is not negative, at any precision. *)
Definition nonneg_at (prec emax : Z) (x : spec_float) (v : R) : Prop :=
  (x = S754_zero false /\ v = 0%R) \/
  exists m e, x = S754_finite false m e /\ SpecFloat.bounded prec emax m e = true /\ v = (IZR (Zpos m) * bpow radix2 e)%R.

Lemma normalize_value prec emax (H1 : FLX.Prec_gt_0 prec) (H2 : Prec_lt_emax prec emax) m e :
  let r := round radix2 (FLT_exp (3 - emax - prec) prec) ZnearestE (IZR m * bpow radix2 e) in
  0 <= m -> (Rabs r < bpow radix2 emax)%R -> nonneg_at prec emax (SpecFloat.binary_normalize prec emax m e false) r.
Proof.
  intros r Hm Hr. rewrite (normalize_any prec emax H1 H2).
  pose proof (binary_normalize_correct prec emax H1 H2 mode_NE m e false) as H. cbn zeta in H. unfold F2R in H. cbn [Fnum Fexp] in H.
  change (round radix2 (SpecFloat.fexp prec emax) (round_mode mode_NE) (IZR m * bpow radix2 e)) with r in H.
  rewrite Rlt_bool_true in H by exact Hr. destruct H as (V & Fi & Si).
  assert (S0 : Bsign (binary_normalize prec emax H1 H2 mode_NE m e false) = false).
  { rewrite Si. destruct (Rcompare_spec (IZR m * bpow radix2 e) 0) as [Hc|Hc|Hc]; try reflexivity. exfalso.
    assert (0 <= IZR m * bpow radix2 e)%R by (apply Rmult_le_pos; [apply IZR_le; lia|apply bpow_ge_0]). lra. }
  destruct (binary_normalize prec emax H1 H2 mode_NE m e false) as [s|s| |s mx ex Hb]; cbn in Fi, S0, V |- *; try discriminate; subst s.
  - left. split; [reflexivity|symmetry; exact V].
  - right. exists mx, ex. split; [reflexivity|]. split; [exact Hb|]. rewrite <- V. unfold F2R. reflexivity.
Qed.

Lemma round_small prec emin (H : FLX.Prec_gt_0 prec) n x : emin <= n + 1 - prec -> (0 <= x <= bpow radix2 n)%R ->
  (0 <= round radix2 (FLT_exp emin prec) ZnearestE x <= bpow radix2 n)%R.
Proof.
  intros Hn [X0 X1]. pose proof (FLT_exp_valid emin prec) as V. split.
  - rewrite <- (round_0 radix2 (FLT_exp emin prec) ZnearestE). now apply round_le; auto with typeclass_instances.
  - rewrite <- (round_generic radix2 (FLT_exp emin prec) ZnearestE (bpow radix2 n)).
    + now apply round_le; auto with typeclass_instances.
    + apply generic_format_bpow. unfold FLT_exp. unfold FLX.Prec_gt_0 in H. lia.
Qed.

Lemma double_of_int n : 0 <= n < 2 ^ 64 -> nonneg_double (f64_of_Z n) (double_round (IZR n)) /\ (0 <= double_round (IZR n) <= bpow radix2 64)%R.
Proof.
  intros Hn.
  assert (B : (0 <= double_round (IZR n) <= bpow radix2 64)%R).
  { apply (round_small 53 (-1074) eq_refl 64); [lia|]. split; [apply IZR_le; lia|]. rewrite bpow_Z by lia. apply IZR_le; lia. }
  split; [|exact B]. unfold f64_of_Z.
  pose proof (normalize_value 53 1024 eq_refl eq_refl n 0) as H. cbn zeta in H. change (3 - 1024 - 53) with (-1074) in H.
  change (bpow radix2 0) with 1%R in H. rewrite Rmult_1_r in H. apply H; [lia|]. fold (double_round (IZR n)). rewrite Rabs_pos_eq by apply B.
  apply Rle_lt_trans with (bpow radix2 64); [apply B|apply bpow_lt; lia].
Qed.

Lemma single_of_double x X : nonneg_double x X -> (X <= bpow radix2 127)%R -> nonneg_float (f32_of_f64 x) (single_round X).
Proof.
  intros [[-> ->]|(m & e & -> & _ & ->)] HX.
  - left. split; [reflexivity|]. apply round_0. auto with typeclass_instances.
  - unfold f32_of_f64. cbn [convert_float].
    pose proof (normalize_value 24 128 eq_refl eq_refl (Zpos m) e) as H. cbn zeta in H. change (3 - 128 - 24) with (-149) in H.
    apply H; [lia|]. fold (single_round (IZR (Zpos m) * bpow radix2 e)).
    assert (B : (0 <= single_round (IZR (Zpos m) * bpow radix2 e) <= bpow radix2 127)%R).
    { apply (round_small 24 (-149) eq_refl 127); [lia|]. split; [|exact HX].
      apply Rmult_le_pos; [apply IZR_le; lia|apply bpow_ge_0]. }
    rewrite Rabs_pos_eq by apply B. apply Rle_lt_trans with (bpow radix2 127); [apply B|apply bpow_lt; lia].
Qed.

Lemma round_two_tenths : single_round (2 / 10) = (IZR 13421773 * bpow radix2 (-26))%R.
Proof.
  unfold single_round, round, F2R. cbn [Fnum Fexp].
  assert (M : mag radix2 (2 / 10) = (-2)%Z :> Z).
  { apply mag_unique. rewrite Rabs_pos_eq by lra. cbn. lra. }
  assert (C : cexp radix2 (FLT_exp (-149) 24) (2 / 10) = -26).
  { unfold cexp. rewrite M. reflexivity. }
  rewrite C. f_equal. apply IZR_eq. unfold scaled_mantissa. rewrite C. apply Znearest_imp.
  cbn. apply Rabs_lt. lra.
Qed.

Lemma default_factor : nonneg_float DEFAULT_TEMPO_ADJUST (single_round (2 / 10)).
Proof. rewrite round_two_tenths. right. exists 13421773%positive, (-26). repeat split. Qed.

From Verif Require Import Paths SpecSong SongProofs SongMore.
Lemma manifest_factor v dir m bank name sd : manifest_new v dir = Ok m -> slot_is m bank name sd ->
  (forall n, at_path v [bank; name; "tempoAdjust"%string] = Some (JNum (JInt n)) -> 0 <= n < 2 ^ 64 ->
     nonneg_float (tempo_factor sd) (single_round (double_round (IZR n)))) /\
  (forall x X, at_path v [bank; name; "tempoAdjust"%string] = Some (JNum (JFloat x)) -> nonneg_double x X -> (X <= bpow radix2 127)%R ->
     nonneg_float (tempo_factor sd) (single_round X)) /\
  ((forall n, at_path v [bank; name; "tempoAdjust"%string] <> Some (JNum n)) -> nonneg_float (tempo_factor sd) (single_round (2 / 10))).
Proof.
  intros Hm Hs. destruct (manifest_slots _ _ _ Hm) as [_ S]. destruct (S _ _ _ Hs) as [_ _ T]. rewrite T. split; [|split].
  - intros n -> Hn. destruct (double_of_int n Hn) as [D [_ B]]. apply single_of_double; [exact D|].
    eapply Rle_trans; [exact B|apply bpow_le; lia].
  - intros x X -> D B. exact (single_of_double x X D B).
  - intros N. destruct (at_path v [bank; name; "tempoAdjust"%string]) as [[| | [n|x] | | | ]|]; try exact default_factor; exfalso; eapply N; reflexivity.
Qed.

Lemma default_slots p : (forall bank name sd, slot_is (manifest_single_song p) bank name sd -> nonneg_float (tempo_factor sd) (single_round (2 / 10))) /\
  (forall bank name sd, slot_is (manifest_file_select p) bank name sd -> nonneg_float (tempo_factor sd) (single_round (2 / 10))).
Proof.
  split; intros bank name sd H.
  - destruct (single_slots p) as [_ S]. destruct (S _ _ _ H) as (_ & _ & ->). exact default_factor.
  - destruct (select_slots p) as [_ S]. rewrite (S _ _ _ H). destruct (String.eqb name "File Select"); exact default_factor.
Qed.

(** A manifest that sets three slots' factors to 3, to 0.5 and to text, and leaves the others alone. *)
Definition factor_json (name : string) : json :=
  let f := if String.eqb name "Boss" then [("tempoAdjust"%string, JNum (JInt 3))]
           else if String.eqb name "Title" then [("tempoAdjust"%string, JNum (JFloat (S754_finite false 4503599627370496 (-53))))]
           else if String.eqb name "Church" then [("tempoAdjust"%string, JStr "slow")] else [] in
  JObj (("input"%string, JStr "/x/a.mid") :: f).
Definition factor_manifest : json := JObj (map (fun s => (fst s, JObj (map (fun n => (n, factor_json n)) (snd s)))) slots).
Lemma factor_manifest_read : exists m boss title, manifest_new factor_manifest "/music" = Ok m /\
  slot_is m "indoor" "Boss" boss /\ at_path factor_manifest ["indoor"; "Boss"; "tempoAdjust"]%string = Some (JNum (JInt 3)) /\
  slot_is m "overworld" "Title" title /\
  (exists x, at_path factor_manifest ["overworld"; "Title"; "tempoAdjust"]%string = Some (JNum (JFloat x)) /\ nonneg_double x (1 / 2)).
Proof.
  eexists. eexists. eexists. split; [vm_compute; reflexivity|]. split; [|split; [vm_compute; reflexivity|split]]; cycle 0.
  - exists 1%nat, 5%nat. eexists. eexists. split; [reflexivity|]. split; [reflexivity|]. split; reflexivity.
  - exists 0%nat, 0%nat. eexists. eexists. split; [reflexivity|]. split; [reflexivity|]. split; reflexivity.
  - eexists. split; [vm_compute; reflexivity|]. right. exists 4503599627370496%positive, (-53). repeat split. cbn. lra.
Qed.
