(** SignedFactor.v: tempo factors of any sign and size (C42). *)
From Coq Require Import ZArith Reals Lia Lra List String.
From Coq Require Import Floats.SpecFloat.
From Flocq Require Import Core.Core IEEE754.BinarySingleNaN.
From Verif Require Import Base F32 ProofLib F32Proofs SpecF32 SpecSigned Manifest FactorProofs.
From Verif Require Import Paths SpecSong SongProofs SongMore.
Import ListNotations.
Open Scope Z_scope.

Lemma signed_times (s : bool) p e : (IZR (if s then Z.neg p else Z.pos p) * bpow radix2 e)%R = signed s (IZR (Z.pos p) * bpow radix2 e).
Proof. destruct s; cbn [signed]; [|reflexivity]. change (Z.neg p) with (- Z.pos p). rewrite opp_IZR. ring. Qed.
Lemma normalize_signed prec emax (H1 : FLX.Prec_gt_0 prec) (H2 : Prec_lt_emax prec emax) (s sz : bool) p e :
  let v := signed s (IZR (Zpos p) * bpow radix2 e) in
  let r := round radix2 (FLT_exp (3 - emax - prec) prec) ZnearestE v in
  let x := SpecFloat.binary_normalize prec emax (if s then Z.neg p else Z.pos p) e sz in
  ((Rabs r < bpow radix2 emax)%R -> stands_for prec emax x s r) /\ ((bpow radix2 emax <= Rabs r)%R -> x = S754_infinity s).
Proof.
  intros v r x. subst x. rewrite (normalize_any prec emax H1 H2).
  pose proof (binary_normalize_correct prec emax H1 H2 mode_NE (if s then Z.neg p else Z.pos p) e sz) as H. cbn zeta in H. unfold F2R in H. cbn [Fnum Fexp] in H.
  rewrite signed_times in H. fold v in H.
  change (round radix2 (SpecFloat.fexp prec emax) (round_mode mode_NE) v) with r in H.
  assert (Hp : (0 < IZR (Z.pos p) * bpow radix2 e)%R) by (apply Rmult_lt_0_compat; [apply IZR_lt; lia|apply bpow_gt_0]).
  split; intros Hr.
  - rewrite Rlt_bool_true in H by exact Hr. destruct H as (V & Fi & Si).
    assert (S0 : Bsign (binary_normalize prec emax H1 H2 mode_NE (if s then Z.neg p else Z.pos p) e sz) = s).
    { rewrite Si. unfold v. destruct s; cbn [signed]; [rewrite Rcompare_Lt by lra|rewrite Rcompare_Gt by lra]; reflexivity. }
    destruct (binary_normalize prec emax H1 H2 mode_NE (if s then Z.neg p else Z.pos p) e sz) as [s'|s'| |s' mx ex Hb]; cbn in Fi, S0, V |- *; try discriminate; subst s'.
    + left. split; [reflexivity|symmetry; exact V].
    + right. exists mx, ex. split; [reflexivity|]. split; [exact Hb|]. rewrite <- V. unfold F2R. cbn [Fnum Fexp]. rewrite <- signed_times. destruct s; reflexivity.
  - rewrite Rlt_bool_false in H by exact Hr. rewrite H. unfold binary_overflow, overflow_to_inf. f_equal.
    unfold v. destruct s; cbn [signed]; [apply Rlt_bool_true; lra|apply Rlt_bool_false; lra].
Qed.

Lemma round_opp_small prec emin (H : FLX.Prec_gt_0 prec) n x : emin <= n + 1 - prec -> (Rabs x <= bpow radix2 n)%R ->
  (Rabs (round radix2 (FLT_exp emin prec) ZnearestE x) <= bpow radix2 n)%R.
Proof.
  intros Hn Hx. pose proof (FLT_exp_valid emin prec) as V. apply abs_round_le_generic; auto with typeclass_instances.
  apply generic_format_bpow. unfold FLT_exp. unfold FLX.Prec_gt_0 in H. lia.
Qed.

Lemma signed_int n : - 2 ^ 63 <= n < 2 ^ 64 -> stands_for 53 1024 (f64_of_Z n) (n <? 0) (double_round (IZR n)) /\ (Rabs (double_round (IZR n)) <= bpow radix2 64)%R.
Proof.
  intros Hn.
  assert (B : (Rabs (double_round (IZR n)) <= bpow radix2 64)%R).
  { apply (round_opp_small 53 (-1074) eq_refl 64); [lia|]. rewrite bpow_Z by lia. rewrite <- abs_IZR. apply IZR_le. lia. }
  split; [|exact B]. unfold f64_of_Z. destruct n as [|p|p].
  - left. split; [reflexivity|]. apply round_0. auto with typeclass_instances.
  - pose proof (normalize_signed 53 1024 eq_refl eq_refl false false p 0) as H. cbn zeta in H. cbn [signed] in H. change (3 - 1024 - 53) with (-1074) in H.
    change (bpow radix2 0) with 1%R in H. rewrite Rmult_1_r in H. apply H. fold (double_round (IZR (Z.pos p))).
    eapply Rle_lt_trans; [exact B|apply bpow_lt; lia].
  - pose proof (normalize_signed 53 1024 eq_refl eq_refl true false p 0) as H. cbn zeta in H. cbn [signed] in H. change (3 - 1024 - 53) with (-1074) in H.
    change (bpow radix2 0) with 1%R in H. rewrite Rmult_1_r, <- opp_IZR in H. apply H. change (- Z.pos p) with (Z.neg p). fold (double_round (IZR (Z.neg p))).
    eapply Rle_lt_trans; [exact B|apply bpow_lt; lia].
Qed.
Lemma signed_single x s X : stands_for 53 1024 x s X -> rounded_single s X (f32_of_f64 x).
Proof.
  intros [[-> ->]|(m & e & -> & _ & ->)]; unfold rounded_single, f32_of_f64; cbn [convert_float].
  - unfold single_round. rewrite round_0 by auto with typeclass_instances. rewrite Rabs_R0. split; intros H; [left; auto|].
    pose proof (bpow_gt_0 radix2 128). lra.
  - exact (normalize_signed 24 128 eq_refl eq_refl s s m e).
Qed.
Lemma manifest_signed v dir m bank name sd : manifest_new v dir = Ok m -> slot_is m bank name sd ->
  (forall n, at_path v [bank; name; "tempoAdjust"%string] = Some (JNum (JInt n)) -> - 2 ^ 63 <= n < 2 ^ 64 ->
     stands_for 24 128 (tempo_factor sd) (n <? 0) (single_round (double_round (IZR n)))) /\
  (forall x s X, at_path v [bank; name; "tempoAdjust"%string] = Some (JNum (JFloat x)) -> stands_for 53 1024 x s X ->
     rounded_single s X (tempo_factor sd)).
Proof.
  intros Hm Hs. destruct (manifest_slots _ _ _ Hm) as [_ S]. destruct (S _ _ _ Hs) as [_ _ T]. rewrite T. split.
  - intros n -> Hn. destruct (signed_int n Hn) as [D B]. apply (signed_single _ _ _ D).
    apply Rle_lt_trans with (bpow radix2 64); [|apply bpow_lt; lia]. apply (round_opp_small 24 (-149) eq_refl 64); [lia|exact B].
  - intros x s X -> D. exact (signed_single x s X D).
Qed.

(** A manifest whose slots have the factors -3, -0.5 and 2^128. *)
Definition signed_json (name : string) : json :=
  let f := if String.eqb name "Boss" then [("tempoAdjust"%string, JNum (JInt (-3)))]
           else if String.eqb name "Title" then [("tempoAdjust"%string, JNum (JFloat (S754_finite true 4503599627370496 (-53))))]
           else if String.eqb name "Church" then [("tempoAdjust"%string, JNum (JFloat (S754_finite false 4503599627370496 76)))] else [] in
  JObj (("input"%string, JStr "/x/a.mid") :: f).
Definition signed_manifest : json := JObj (map (fun s => (fst s, JObj (map (fun n => (n, signed_json n)) (snd s)))) slots).
Lemma signed_manifest_read : exists m boss title, manifest_new signed_manifest "/music" = Ok m /\
  slot_is m "indoor" "Boss" boss /\ at_path signed_manifest ["indoor"; "Boss"; "tempoAdjust"]%string = Some (JNum (JInt (-3))) /\
  slot_is m "overworld" "Title" title /\
  (exists x, at_path signed_manifest ["overworld"; "Title"; "tempoAdjust"]%string = Some (JNum (JFloat x)) /\ stands_for 53 1024 x true (- (1 / 2))).
Proof.
  eexists. eexists. eexists. split; [vm_compute; reflexivity|]. split; [|split; [vm_compute; reflexivity|split]]; cycle 0.
  - exists 1%nat, 5%nat. eexists. eexists. split; [reflexivity|]. split; [reflexivity|]. split; reflexivity.
  - exists 0%nat, 0%nat. eexists. eexists. split; [reflexivity|]. split; [reflexivity|]. split; reflexivity.
  - eexists. split; [vm_compute; reflexivity|]. right. exists 4503599627370496%positive, (-53). repeat split. cbn. lra.
Qed.
Lemma signed_values : forall x, x = S754_finite false 4503599627370496 76 -> stands_for 53 1024 x false (bpow radix2 128) /\ f32_of_f64 x = S754_infinity false.
Proof. intros x ->. split; [right; exists 4503599627370496%positive, 76; repeat split; cbn; lra|vm_compute; reflexivity]. Qed.
