(** TrackProofs.v: the conversion of a voice into a track (C08-C10, C12, C48). *)
From Coq Require Import ZArith List Bool Lia ZifyBool ZifyNat.
From Verif Require Import Base F32 Messages Command Track ProofLib SpecTime SplitProofs DurationProofs
  SpecNspc CodecProofs SpecVoice.

(** ** Lengths within the range where splitting is exact *)
Definition gap_ok (tpb t : Z) : Prop := 0 <= t <= 2 ^ 24 /\ 24 * t <= 32511 * tpb.
Definition ppq_ok (tpb : Z) : Prop := 1 <= tpb <= 65535.
(** Ticks lost (in 1/24 ticks) when a number of steps is converted to whole ticks. *)
Definition loss (tpb : Z) : Z := if tpb mod 24 =? 0 then 0 else 23.
Lemma loss_range tpb : 0 <= loss tpb <= 23.
Proof. unfold loss. destruct (_ =? _); lia. Qed.
Lemma loss_spec tpb q : q * tpb - loss tpb <= 24 * (q * tpb / 24) <= q * tpb.
Proof.
  unfold loss. destruct (tpb mod 24 =? 0) eqn:E.
  - assert (exists g, tpb = g * 24) as [g ->] by (exists (tpb / 24); lia).
    rewrite Z.mul_assoc, Z.div_mul by lia. lia.
  - generalize (q * tpb). intros x. lia.
Qed.
Lemma gap_div tpb t : ppq_ok tpb -> gap_ok tpb t -> 24 * t / tpb < 2 ^ 23 - 1.
Proof. intros Hg [H1 H2]. unfold ppq_ok in Hg. apply Z.div_lt_upper_bound; lia. Qed.
Lemma gap_quantized tpb t up : ppq_ok tpb -> gap_ok tpb t ->
  let q := quantized_length t tpb up in
  0 <= q <= 32511 /\ Z.abs (q * tpb - 24 * t) < tpb /\ (0 < t -> up = true -> 1 <= q).
Proof.
  intros Hg Ht. cbn zeta. pose proof Hg as Hg1. unfold ppq_ok in Hg1. pose proof Ht as Ht'. destruct Ht' as [H1 H2].
  pose proof (quantized_within t tpb up ltac:(lia) H1 (gap_div tpb t Hg Ht)) as Hw.
  pose proof (quantized_nonneg t tpb up) as Hn.
  split; [|split]; [split; [assumption|]| assumption|].
  - generalize dependent (quantized_length t tpb up). intros q Hw Hn. nia.
  - intros Hp ->. destruct (Z_lt_ge_dec (24 * t) tpb) as [L|L].
    + rewrite quantized_ceil_exact by lia.
      apply Z.div_le_lower_bound; lia.
    + generalize dependent (quantized_length t tpb true). intros q Hw Hn. nia.
Qed.
Lemma gap_duration tpb b t up : ppq_ok tpb -> gap_ok tpb t ->
  exists d, get_duration b t tpb up = Ok d /\
    let q := quantized_length t tpb up in
    d_length d + 127 * overflow_count d = q /\ quantized_ticks d = q * tpb / 24 /\
    0 <= d_length d <= 127 /\ 0 <= overflow_count d <= 255 /\ (1 <= q -> 1 <= d_length d).
Proof.
  intros Hg Ht. pose proof Hg as Hg1. unfold ppq_ok in Hg1. pose proof Ht as [H1 H2]. destruct (gap_quantized tpb t up Hg Ht) as (Hq & _).
  rewrite get_duration_value by (try lia; apply gap_div; assumption).
  eexists. split; [reflexivity|]. cbn zeta.
  destruct (split_length_spec (quantized_length t tpb up) (quantized_length t tpb up * tpb / 24)
              ltac:(lia)) as (A & B & C & D & E).
  auto.
Qed.

(** ** Walking *)
Lemma walk_now l w : w_now (fold_left walk_step l w) = w_now w + total_steps l.
Proof.
  revert w. induction l as [|c l IH]; intros w; cbn [fold_left]; [unfold total_steps, zsum; cbn [map fold_right]; lia|].
  rewrite IH, total_steps_cons. cbn [walk_step w_now]. lia.
Qed.
(** Commands without velocity that are not slides only move time. *)
Definition quiet (pc : pcmd) : Prop := velocity pc = None /\ slide_cmd pc = false.
Lemma walk_quiet l w : Forall quiet l ->
  let w' := fold_left walk_step l w in
  w_slide w' = w_slide w /\ w_heads w' = w_heads w /\ w_last_slide w' = match l with [] => w_last_slide w | _ => false end.
Proof.
  cbn zeta. revert w. induction l as [|c l IH]; intros w H; cbn [fold_left]; [auto|].
  inversion H as [|? ? [Hv Hs] Hl]; subst. destruct (IH (walk_step w c) Hl) as (A & B & C).
  rewrite A, B, C. cbn [walk_step w_slide w_heads w_last_slide]. rewrite Hv, Hs.
  repeat split; try reflexivity. destruct l; reflexivity.
Qed.
Lemma walk_last l w : w_last_slide (fold_left walk_step l w) =
  match last_opt l with Some c => slide_cmd c | None => w_last_slide w end.
Proof.
  destruct (last_opt l) eqn:E.
  - apply last_opt_some in E. destruct E as (l' & ->). rewrite fold_left_app. reflexivity.
  - apply last_opt_nil in E. now subst.
Qed.

(** ** The sustain pass *)
Definition plain_ok (c : command) : Prop :=
  match c with
  | SetInstrument _ | Tempo _ | ChannelVolume _ | PitchSlide _ _ _ => bytes_ok c
  | _ => False
  end.
Definition dur_ok (pc : pcmd) : Prop :=
  match cmd pc with
  | Note p => legal_duration pc /\ (exists v, velocity pc = Some v /\ 0 <= v <= 15) /\ in_range 0 7 (sustain pc) /\ u8 p
  | Tie => legal_duration pc /\ in_range 0 15 (velocity pc) /\ in_range 0 7 (sustain pc)
  | Rest => legal_duration pc /\ velocity pc = None /\ sustain pc = None
  | c => duration pc = None /\ velocity pc = None /\ sustain pc = None /\ plain_ok c
  end.
(** The same after the sustain pass: a note's duration may have become as long as 254. *)
Definition dur_ok' (pc : pcmd) : Prop :=
  dur_ok pc \/
  exists p d, cmd pc = Note p /\ duration pc = Some d /\ 1 <= d <= 254 /\
    (exists v, velocity pc = Some v /\ 0 <= v <= 15) /\ in_range 0 7 (sustain pc) /\ u8 p.

Lemma set_sustain_cases c next r :
  dur_ok c -> dur_ok next -> set_sustain c next = Ok r ->
  r = (false, c) \/
  exists n m p q, cmd c = Note p /\ cmd next = Rest /\ velocity next = None /\ duration c = Some n /\ duration next = Some m /\
    1 <= n <= 127 /\ 1 <= m <= 127 /\ 0 <= q <= 7 /\ (q * (n + m) = 8 * n \/ (q = 7 /\ 16 * m < n)) /\
    r = (true, mk_pcmd (Some (n + m)) (velocity c) (Some q) (Note p)).
Proof.
  intros Hc Hn H.
  destruct (cmd c) eqn:Ec; try (left; rewrite set_sustain_other in H by (left; congruence); congruence).
  destruct (cmd next) eqn:En; try (left; rewrite set_sustain_other in H by (right; congruence); congruence).
  unfold dur_ok in Hc, Hn. rewrite Ec in Hc. rewrite En in Hn.
  destruct Hc as ((n & Hdn & Hn1) & _). destruct Hn as ((m & Hdm & Hm1) & Hv & _).
  destruct c as [dc vc sc cc], next as [dn vn sn cn]. cbn [cmd duration velocity] in *. subst.
  destruct r as [flag c']. pose proof (set_sustain_pair _ _ _ _ _ _ _ _ _ Hn1 Hm1 H) as Hp. destruct flag.
  - destruct Hp as (q & -> & Hq & Hqq). right. exists n, m, p, q. repeat split; auto; lia.
  - left. destruct Hp as (-> & _). reflexivity.
Qed.

Lemma sustain_pass_cons c next l : sustain_pass (c :: next :: l) =
  (let* r := set_sustain c next in
   let '(skip, c') := r in
   let* rest := if skip then sustain_pass l else sustain_pass (next :: l) in
   Ok (c' :: rest)).
Proof. reflexivity. Qed.
Lemma sustain_walk n : forall l, (length l <= n)%nat -> Forall dur_ok l ->
  exists l', sustain_pass l = Ok l' /\ (forall w, fold_left walk_step l' w = fold_left walk_step l w) /\
    Forall dur_ok' l'.
Proof.
  induction n as [|n IH]; intros l Hl H.
  { destruct l; [|cbn in Hl; lia]. exists []. repeat split; auto. }
  destruct l as [|c [|next l]]; [exists []; repeat split; auto| |].
  { exists [c]. inversion H; subst. repeat split; auto. constructor; [left; assumption|constructor]. }
  inversion H as [|? ? Hc H']; subst. inversion H' as [|? ? Hnx H'']; subst.
  rewrite sustain_pass_cons.
  destruct (set_sustain c next) as [r| | |] eqn:E.
  - destruct (set_sustain_cases c next r Hc Hnx E) as [->|(a & m & p & q & Ec & En & Hv & Hdc & Hdn & Ha & Hm & Hq & _ & ->)].
    + destruct (IH (next :: l)) as (l' & Hs & Hw & He); [cbn in *; lia|assumption|].
      exists (c :: l'). cbn [bind]. rewrite Hs. cbn [bind]. split; [reflexivity|].
      split; [|constructor; [left; assumption|assumption]].
      intros w. change (fold_left walk_step (c :: l') w) with (fold_left walk_step l' (walk_step w c)).
      rewrite Hw. reflexivity.
    + destruct (IH l) as (l' & Hs & Hw & He); [cbn in *; lia|assumption|].
      eexists. cbn [bind]. rewrite Hs. cbn [bind]. split; [reflexivity|]. split.
      2:{ constructor; [|assumption]. right. exists p, (a + m). cbn [cmd duration velocity sustain].
          unfold dur_ok in Hc. rewrite Ec in Hc. destruct Hc as (_ & Hv1 & _ & Hp). unfold u8 in Hp.
          repeat split; auto; lia. }
      intros w. cbn [fold_left]. rewrite Hw. f_equal.
      unfold walk_step at 1 2 3. cbn [w_now w_slide w_last_slide w_heads steps duration velocity cmd].
      unfold steps. cbn [duration]. rewrite Hdc, Hdn, Hv. unfold slide_cmd. cbn [cmd]. rewrite Ec, En.
      f_equal; [lia].
  - exfalso. clear IH. unfold set_sustain in E. unfold dur_ok in *. destruct (cmd c); try discriminate.
    destruct (cmd next); try discriminate. destruct Hc as ((x & Hx & ?) & _), Hnx as ((y & Hy & ?) & _).
    rewrite Hx, Hy in E. cbn [or_panic bind] in E. destruct (x + y =? 0); [discriminate|]. destruct (_ || _); discriminate.
  - exfalso. clear IH. unfold set_sustain in E. unfold dur_ok in *. destruct (cmd c); try discriminate.
    destruct (cmd next); try discriminate. destruct Hc as ((x & Hx & ?) & _), Hnx as ((y & Hy & ?) & _).
    rewrite Hx, Hy in E. cbn [or_panic bind] in E. destruct (x + y =? 0) eqn:E0; [lia|]. destruct (_ || _); discriminate.
  - exfalso. clear IH. unfold set_sustain in E. unfold dur_ok in *. destruct (cmd c); try discriminate.
    destruct (cmd next); try discriminate. destruct Hc as ((x & Hx & ?) & _), Hnx as ((y & Hy & ?) & _).
    rewrite Hx, Hy in E. cbn [or_panic bind] in E. destruct (x + y =? 0) eqn:E0; [lia|]. destruct (_ || _); discriminate.
Qed.

(** ** One event at a time *)
Lemma lor_bound a b n : 0 <= n -> 0 <= a < 2 ^ n -> 0 <= b < 2 ^ n -> 0 <= Z.lor a b < 2 ^ n.
Proof.
  intros Hn Ha Hb. assert (0 <= Z.lor a b) by (apply Z.lor_nonneg; lia). split; [assumption|].
  destruct (Z.eq_dec (Z.lor a b) 0) as [->|E]; [apply Z.pow_pos_nonneg; lia|].
  apply Z.log2_lt_pow2; [lia|]. rewrite Z.log2_lor by lia.
  assert (forall x, 0 <= x < 2 ^ n -> x <> 0 -> Z.log2 x < n) as HH.
  { intros x Hx Hx0. apply Z.log2_lt_pow2; lia. }
  destruct (Z.eq_dec a 0) as [->|Ea].
  - rewrite Z.lor_0_l in E. apply Z.max_lub_lt; [|apply HH; lia].
    specialize (HH b Hb E). pose proof (Z.log2_nonneg b). cbn; lia.
  - destruct (Z.eq_dec b 0) as [->|Eb].
    + apply Z.max_lub_lt; [apply HH; lia|]. specialize (HH a Ha Ea). pose proof (Z.log2_nonneg a). cbn; lia.
    + apply Z.max_lub_lt; apply HH; lia.
Qed.
Lemma land_bound a b n : 0 <= n -> 0 <= b < 2 ^ n -> 0 <= Z.land a b < 2 ^ n.
Proof.
  intros Hn Hb. assert (0 <= Z.land a b) by (apply Z.land_nonneg; lia). split; [assumption|].
  assert (Z.land a b <= b); [|lia].
  assert (Hs : b = Z.land a b + Z.land (Z.lnot a) b).
  { rewrite Z.add_nocarry_lxor.
    - apply Z.bits_inj'. intros i Hi. rewrite Z.lxor_spec, !Z.land_spec, Z.lnot_spec by assumption.
      destruct (Z.testbit a i), (Z.testbit b i); reflexivity.
    - apply Z.bits_inj'. intros i Hi. rewrite !Z.land_spec, Z.lnot_spec, Z.bits_0 by assumption.
      destruct (Z.testbit a i), (Z.testbit b i); reflexivity. }
  assert (0 <= Z.land (Z.lnot a) b) by (apply Z.land_nonneg; lia). lia.
Qed.

Lemma walk_tied l w : (w_last_slide w = true -> w_slide w <> None) ->
  w_last_slide (fold_left walk_step l w) = true -> w_slide (fold_left walk_step l w) <> None.
Proof.
  revert w. induction l as [|c l IH]; intros w H; cbn [fold_left]; [exact H|]. apply IH.
  cbn [walk_step w_last_slide w_slide]. intros ->. discriminate.
Qed.

Definition the_walk (cmds : list pcmd) : walk := fold_left walk_step cmds walk0.
Definition slide_aims (w : walk) (k : Z) : Prop :=
  forall sl p q target, w_slide w = Some sl -> cmd sl = PitchSlide p q target -> target = k + 0x68.

(** Everything the conversion maintains about the commands emitted so far ([e] is the clock, [D] the
    accumulated rounding loss, [tol] the tolerance). *)
Definition emitted (tpb tol D : Z) (cmds : list pcmd) (e : Z) (slide_ok : walk -> Prop) (done : list vnote) : Prop :=
  0 <= w_now (the_walk cmds) * tpb - 24 * e <= D /\ 0 <= e /\ Forall dur_ok cmds /\
  Forall2 (renders tpb tol) (w_heads (the_walk cmds)) done /\ slide_ok (the_walk cmds).
Definition no_slide (w : walk) : Prop := w_slide w = None.

Lemma the_walk_app a b : the_walk (a ++ b) = fold_left walk_step b (the_walk a).
Proof. unfold the_walk. apply fold_left_app. Qed.

(** Appending commands that carry no velocity and are no slides. *)
Lemma emitted_quiet tpb tol D D' cmds e (P : walk -> Prop) done l e' :
  (forall w w', w_slide w' = w_slide w -> P w -> P w') ->
  emitted tpb tol D cmds e P done -> Forall quiet l -> Forall dur_ok l -> 0 <= e' ->
  0 <= total_steps l * tpb - 24 * (e' - e) <= D' - D ->
  emitted tpb tol D' (cmds ++ l) e' P done.
Proof.
  intros HP (A & B & C & D1 & E) Hq Hd He Hloss. unfold emitted. rewrite the_walk_app.
  destruct (walk_quiet l (the_walk cmds) Hq) as (Q1 & Q2 & _). cbn zeta in *.
  rewrite walk_now, Q2. split; [rewrite Z.mul_add_distr_r; lia|]. split; [assumption|].
  split; [apply Forall_app; auto|]. split; [assumption|]. now apply (HP (the_walk cmds)).
Qed.
Definition rest_like (pc : pcmd) : Prop :=
  cmd pc = Rest /\ legal_duration pc /\ velocity pc = None /\ sustain pc = None.
Lemma rest_quiet l : Forall rest_like l -> Forall quiet l /\ Forall dur_ok l.
Proof.
  intros H; split; revert H; apply Forall_impl; intros c (Hc & Hl & Hv & Hs); unfold quiet, dur_ok, slide_cmd; rewrite Hc; auto.
Qed.

(** Rests up to time [t]. *)
Lemma insert_rest_step tpb b cmds e t : ppq_ok tpb -> 0 <= e -> 0 <= t < 2 ^ 31 ->
  24 * e < 24 * t + tpb -> 24 * (t - e) <= 32511 * tpb -> t - e <= 2 ^ 24 ->
  exists l e', insert_rest b cmds e t tpb = Ok (cmds ++ l, e') /\
    0 <= total_steps l * tpb - 24 * (e' - e) <= loss tpb /\ e <= e' /\
    Forall rest_like l /\ - (tpb + loss tpb) < 24 * (e' - t) < tpb /\ (24 * (t - e) < 2 ^ 23 -> e' <= Z.max e t).
Proof.
  intros Hg He Ht H1 H2 H3. unfold insert_rest. pose proof (loss_range tpb) as HL. unfold ppq_ok in Hg.
  destruct (e <? t) eqn:E.
  - assert (Hgap : gap_ok tpb (t - e)) by (split; lia).
    destruct (gap_quantized tpb (t - e) false Hg Hgap) as (Q1 & Q2 & _).
    destruct (gap_duration tpb b (t - e) false Hg Hgap) as (d & -> & D1 & D2 & D3 & D4 & _). cbn [bind].
    rewrite D2. assert (Hfl : 24 * (t - e) < 2 ^ 23 -> quantized_length (t - e) tpb false * tpb <= 24 * (t - e)).
    { intros Hs. rewrite quantized_floor_exact by lia. rewrite Z.mul_comm. apply Z.mul_div_le. lia. }
    set (q := quantized_length (t - e) tpb false) in *. clearbody q.
    pose proof (loss_spec tpb q) as HS. assert (0 <= q * tpb) by nia.
    assert (0 <= q * tpb / 24) by (apply Z.div_pos; lia).
    generalize dependent (q * tpb / 24). intros ticks D2 HS Hticks.
    rewrite arith_exact by lia. cbn [bind].
    set (r127 := repeat (rest_cmd 0x7f) (Z.to_nat (overflow_count d))).
    assert (Hr : Forall rest_like r127).
    { apply Forall_forall. intros x Hx. apply repeat_spec in Hx. subst x. repeat split.
      exists 0x7f. split; [reflexivity|lia]. }
    assert (Hrt : total_steps r127 = 127 * overflow_count d).
    { unfold r127. rewrite total_steps_repeat. change (steps (rest_cmd 0x7f)) with 127. lia. }
    destruct (0 <? d_length d) eqn:E2.
    + exists (r127 ++ [rest_cmd (d_length d)]), (e + ticks). rewrite app_assoc. split; [reflexivity|].
      assert (Htot : total_steps (r127 ++ [rest_cmd (d_length d)]) = q).
      { rewrite total_steps_app, Hrt. change (total_steps [rest_cmd (d_length d)]) with (d_length d + 0). lia. }
      rewrite Htot. split; [lia|]. split; [lia|]. split; [|split; lia].
      apply Forall_app. split; [assumption|]. repeat constructor. exists (d_length d). split; [reflexivity|lia].
    + exists r127, (e + ticks). split; [reflexivity|].
      assert (Htot : total_steps r127 = q) by lia. rewrite Htot.
      split; [lia|]. split; [lia|]. split; [assumption|split; lia].
  - exists [], e. rewrite app_nil_r. change (total_steps []) with 0.
    split; [reflexivity|]. split; [lia|]. split; [lia|]. split; [constructor|split; lia].
Qed.

Lemma dur_ok_duration pc d : dur_ok pc -> duration pc = Some d -> 1 <= d <= 127.
Proof.
  unfold dur_ok. destruct (cmd pc); intros H Hd; try (destruct H as (H & _); congruence);
    destruct H as ((x & Hx & ?) & _); congruence.
Qed.
Definition slide_like (k : Z) (l : list pcmd) : Prop :=
  l = [] \/ exists p q, u8 p /\ u8 q /\ u8 (k + 0x68) /\ l = [mk_pcmd None None None (PitchSlide p q (k + 0x68))].
Lemma push_slide_step tpb b s cmds k : ppq_ok tpb -> 0 <= k < 128 -> 0 <= port_time s < 65536 -> Forall dur_ok cmds ->
  exists l, push_slide b s cmds k tpb = Ok (cmds ++ l) /\ slide_like k l.
Proof.
  unfold slide_like. intros Hg Hk Hp HF. unfold push_slide. unfold ppq_ok in Hg.
  destruct (portamento s); [|exists []; rewrite app_nil_r; auto].
  destruct (last_opt cmds) as [lc|] eqn:El; [|exists []; rewrite app_nil_r; auto].
  assert (Hlc : dur_ok lc).
  { apply last_opt_some in El. destruct El as (l' & ->). apply Forall_app in HF. destruct HF as (_ & HF).
    now inversion HF. }
  rewrite get_duration_value by (try lia; apply Z.div_lt_upper_bound; lia). cbn [bind].
  rewrite arith_exact by lia. cbn [bind]. unfold create_pitch_slide.
  pose proof (quantized_nonneg (port_time s) tpb true) as Hqn.
  set (q := quantized_length (port_time s) tpb true) in *.
  destruct (split_length_ranges q (q * tpb / 24) Hqn) as (_ & D & _).
  destruct (duration lc) as [d|] eqn:Ed.
  - pose proof (dur_ok_duration _ _ Hlc Ed).
    assert (Hb : u8 (d - Z.min (d_length (split_length q (q * tpb / 24))) d)
      /\ u8 (d_length (split_length q (q * tpb / 24))) /\ u8 (k + 0x68)) by (unfold u8; lia).
    destruct Hb as (B1 & B2 & B3).
    destruct (cmd lc); try (eexists; split; [reflexivity|]; right; eauto 8; fail).
    exists []; rewrite app_nil_r; auto.
  - exists []. rewrite app_nil_r. split; [destruct (cmd lc); reflexivity|auto].
Qed.

(** A slide appended when none is pending. *)
Lemma emitted_slide tpb tol D cmds e done k l :
  emitted tpb tol D cmds e no_slide done ->
  slide_like k l ->
  emitted tpb tol D (cmds ++ l) e (fun w => slide_aims w k) done.
Proof.
  intros (A & B & C & D1 & E) [->|(p & q & Hp & Hq & Hk & ->)].
  - rewrite app_nil_r. unfold emitted. split; [assumption|]. repeat (split; [assumption|]).
    intros sl p q tg Hs. unfold no_slide in E. congruence.
  - unfold emitted. rewrite the_walk_app. cbn [fold_left]. unfold walk_step at 1 2 3.
    cbn [w_now w_heads velocity cmd slide_cmd steps duration]. unfold steps; cbn [duration].
    rewrite Z.add_0_r. split; [assumption|]. split; [assumption|]. split; [|split; [assumption|]].
    + apply Forall_app; split; auto. repeat constructor; cbn; auto; try apply Hp; try apply Hq; try apply Hk.
    + intros sl p' q' tg. cbn [walk_step w_slide slide_cmd cmd]. intros [= <-]. cbn [cmd]. congruence.
Qed.

(** The sounding command and its ties. *)
Lemma emitted_head tpb tol D D' cmds e done on off k v c d ties e' :
  emitted tpb tol D cmds e (fun w => slide_aims w k) done ->
  - (tpb + loss tpb) < 24 * (e - on) < tpb -> tpb + loss tpb <= tol -> tpb + D <= tol ->
  1 <= d <= 127 -> 0 <= v < 128 -> 0 <= k < 128 ->
  c = (if match last_opt cmds with Some c => is_slide c | None => false end then Tie else Note (k + 0x68)) ->
  Forall quiet ties -> Forall dur_ok ties -> 0 <= e' ->
  0 <= (d + total_steps ties) * tpb - 24 * (e' - e) <= D' - D ->
  emitted tpb tol D' (cmds ++ mk_pcmd (Some d) (Some (v / 8)) (Some 7) c :: ties) e' no_slide (done ++ [mk_vnote on off k v]).
Proof.
  intros (A & B & C & D1 & E) Hon Ht1 Ht2 Hd Hvr Hkr Hc Hq Hdt He' Hloss. unfold emitted.
  set (hd := mk_pcmd (Some d) (Some (v / 8)) (Some 7) c).
  assert (Hsl : slide_cmd hd = false).
  { unfold slide_cmd, hd. cbn [cmd]. rewrite Hc. destruct (match last_opt cmds with Some _ => _ | None => _ end); reflexivity. }
  change (hd :: ties) with ([hd] ++ ties). rewrite the_walk_app, fold_left_app.
  destruct (walk_quiet ties (fold_left walk_step [hd] (the_walk cmds)) Hq) as (Q1 & Q2 & _). cbn zeta in *.
  rewrite walk_now, Q2. unfold no_slide. rewrite Q1. cbn [fold_left].
  assert (W : walk_step (the_walk cmds) hd = mk_walk (w_now (the_walk cmds) + d) None false
    (w_heads (the_walk cmds) ++ [mk_head (w_now (the_walk cmds)) c (v / 8) (w_slide (the_walk cmds)) (w_last_slide (the_walk cmds))])).
  { unfold walk_step. rewrite Hsl. reflexivity. }
  rewrite W. cbn [w_now w_heads w_slide]. split; [rewrite <- Z.add_assoc, Z.mul_add_distr_r; lia|].
  split; [assumption|]. split.
  - apply Forall_app. split; [assumption|]. constructor; [|assumption].
    unfold dur_ok. unfold hd. cbn [cmd]. rewrite Hc. cbn [duration velocity sustain in_range].
    assert (legal_duration hd) by (exists d; split; [reflexivity|lia]).
    destruct (match last_opt cmds with Some _ => _ | None => _ end).
    + repeat split; auto; lia.
    + split; [assumption|]. split; [exists (v / 8); split; [reflexivity|lia]|]. unfold u8. lia.
  - split; [|reflexivity]. apply Forall2_app; [assumption|]. constructor; [|constructor].
    unfold renders. cbn [h_onset h_vel h_cmd h_slide h_tied n_on n_vel n_key].
    split; [lia|]. split; [reflexivity|].
    assert (L : w_last_slide (the_walk cmds) = match last_opt cmds with Some c => is_slide c | None => false end).
    { unfold the_walk. rewrite walk_last. destruct (last_opt cmds); reflexivity. }
    split; [now rewrite L|]. split; [exact E|].
    apply walk_tied. discriminate.
Qed.

Definition clock_near (tpb e t : Z) : Prop := - (tpb + loss tpb) < 24 * (e - t) < tpb.

Lemma note_off_step tpb tol D b s k t start on done :
  ppq_ok tpb -> note_start s = Some start -> 0 <= t < 2 ^ 31 -> 0 <= k < 128 ->
  emitted tpb tol D (commands s) start (fun w => slide_aims w k) done ->
  tpb + loss tpb <= tol -> tpb + D <= tol ->
  clock_near tpb start on -> start < t -> near tpb on t -> 0 <= note_velocity s < 128 ->
  exists s', on_note_off b s k t tpb = Ok s' /\ note_start s' = None /\ port_time s' = port_time s /\
    emitted tpb tol (D + loss tpb) (commands s') (last_note_end s') no_slide (done ++ [mk_vnote on t k (note_velocity s)]) /\
    clock_near tpb (last_note_end s') t.
Proof.
  intros Hg Hst Ht Hk HE Ht1 Ht2 Hon Hlen (N1 & N2 & N3) Hvel. unfold clock_near in *.
  pose proof HE as (_ & Hs0 & _). pose proof (loss_range tpb) as HL. unfold ppq_ok in Hg.
  assert (Hgap : gap_ok tpb (t - start)) by (split; lia).
  destruct (gap_quantized tpb (t - start) true Hg Hgap) as (Q1 & Q2 & Q3).
  specialize (Q3 ltac:(lia) eq_refl).
  destruct (gap_duration tpb b (t - start) true Hg Hgap) as (d & Hd & D1 & D2 & D3 & D4 & D5). cbn zeta in *.
  set (q := quantized_length (t - start) tpb true) in *. clearbody q. specialize (D5 Q3).
  unfold on_note_off. rewrite Hst, (arith_exact b 32 (t - start)) by lia. cbn [bind]. rewrite Hd. cbn [bind].
  rewrite D2. pose proof (loss_spec tpb q) as HS. assert (0 <= q * tpb) by nia.
  assert (0 <= q * tpb / 24) by (apply Z.div_pos; lia).
  generalize dependent (q * tpb / 24). intros ticks D2 HS Hticks.
  set (tied := match last_opt (commands s) with Some c => is_slide c | None => false end).
  assert (Hc : (if tied then Ok Tie else let* p := arith b 8 (k + 0x68) in Ok (Note p)) =
               Ok (if tied then Tie else Note (k + 0x68))).
  { destruct tied; [reflexivity|]. rewrite arith_exact by lia. reflexivity. }
  rewrite Hc. cbn [bind]. rewrite arith_exact by lia. cbn [bind].
  eexists. split; [reflexivity|]. cbn [note_start port_time commands last_note_end].
  split; [reflexivity|]. split; [reflexivity|]. split; [|lia].
  assert (Htot : (if 0 <? overflow_count d then 0x7f else d_length d) + total_steps (overflow_ties (overflow_count d) (d_length d)) = q).
  { unfold overflow_ties. destruct (0 <? overflow_count d) eqn:E.
    + rewrite total_steps_app, total_steps_repeat. change (steps (tie_cmd 0x7f)) with 127.
      change (total_steps [tie_cmd (d_length d)]) with (d_length d + 0). lia.
    + change (total_steps []) with 0. lia. }
  apply emitted_head with (D := D) (e := start); auto; try lia.
  - destruct (0 <? overflow_count d) eqn:E; lia.
  - unfold overflow_ties. destruct (0 <? overflow_count d); [|constructor]. apply Forall_app. split.
    + apply Forall_forall. intros x Hx. apply repeat_spec in Hx. subst x. split; reflexivity.
    + repeat constructor.
  - unfold overflow_ties. destruct (0 <? overflow_count d); [|constructor]. apply Forall_app. split.
    + apply Forall_forall. intros x Hx. apply repeat_spec in Hx. subst x.
      repeat split; cbn; auto. exists 127. split; [reflexivity|lia].
    + repeat constructor. exists (d_length d). split; [reflexivity|lia].
Qed.

Lemma no_slide_stable : forall w w', w_slide w' = w_slide w -> no_slide w -> no_slide w'.
Proof. unfold no_slide. intros w w' E. now rewrite E. Qed.
Lemma slide_aims_stable k : forall w w', w_slide w' = w_slide w -> slide_aims w k -> slide_aims w' k.
Proof. unfold slide_aims. intros w w' E. now rewrite E. Qed.

Lemma note_on_step tpb tol D b s k v t prev done :
  ppq_ok tpb -> note_start s = None -> 0 <= t < 2 ^ 31 -> 0 <= k < 128 -> 0 <= port_time s < 65536 ->
  emitted tpb tol D (commands s) (last_note_end s) no_slide done ->
  clock_near tpb (last_note_end s) prev -> near tpb prev t ->
  exists s', on_note_on b s k v t tpb = Ok s' /\ note_start s' = Some (last_note_end s') /\
    note_velocity s' = v /\ port_time s' = port_time s /\
    emitted tpb tol (D + loss tpb) (commands s') (last_note_end s') (fun w => slide_aims w k) done /\
    clock_near tpb (last_note_end s') t /\
    (24 * (t - last_note_end s) < 2 ^ 23 -> last_note_end s' <= Z.max (last_note_end s) t).
Proof.
  intros Hg Hn Ht Hk Hp HE Hprev (N1 & N2 & N3). pose proof HE as (_ & He0 & _). unfold clock_near in *.
  pose proof (loss_range tpb) as HL. pose proof Hg as Hg1. unfold ppq_ok in Hg1.
  destruct (insert_rest_step tpb b (commands s) (last_note_end s) t Hg ltac:(lia) Ht ltac:(lia) ltac:(lia) ltac:(lia))
    as (l & e' & Hi & He' & Hle & Hl & Habs & Hover).
  destruct (push_slide_step tpb b s (commands s ++ l) k Hg Hk Hp) as (l2 & Hps & Hl2).
  { apply Forall_app. split; [apply HE|apply rest_quiet; assumption]. }
  unfold on_note_on. rewrite Hi. cbn [bind]. rewrite Hps. cbn [bind]. rewrite Hn.
  eexists. split; [reflexivity|]. cbn [note_start note_velocity port_time commands last_note_end].
  split; [reflexivity|]. split; [reflexivity|]. split; [reflexivity|]. split; [|split; assumption].
  apply emitted_slide; [|assumption]. destruct (rest_quiet l Hl) as (R1 & R2).
  apply emitted_quiet with (D := D) (e := last_note_end s); auto; try lia. exact no_slide_stable.
Qed.

Lemma emitted_control tpb tol D cmds e (P : walk -> Prop) done c :
  (forall w w', w_slide w' = w_slide w -> P w -> P w') ->
  emitted tpb tol D cmds e P done -> slide_cmd (plain_cmd c) = false -> dur_ok (plain_cmd c) ->
  emitted tpb tol D (cmds ++ [plain_cmd c]) e P done.
Proof.
  intros HP HE H1 H2. pose proof HE as (_ & He & _). apply emitted_quiet with (D := D) (e := e); auto.
  - repeat constructor. exact H1.
  - change (total_steps [plain_cmd c]) with 0. lia.
Qed.

Lemma program_step tpb tol D b s ch p t prev done :
  ppq_ok tpb -> 0 <= t < 2 ^ 31 -> 0 <= p < 128 ->
  emitted tpb tol D (commands s) (last_note_end s) no_slide done ->
  clock_near tpb (last_note_end s) prev -> near tpb prev t ->
  exists s', on_program_change b s ch p t tpb = Ok s' /\ note_start s' = note_start s /\ port_time s' = port_time s /\
    emitted tpb tol (D + loss tpb) (commands s') (last_note_end s') no_slide done /\ clock_near tpb (last_note_end s') t /\
    (24 * (t - last_note_end s) < 2 ^ 23 -> last_note_end s' <= Z.max (last_note_end s) t).
Proof.
  intros Hg Ht Hp HE Hprev (N1 & N2 & N3). pose proof HE as (_ & He0 & _). unfold clock_near in *.
  pose proof (loss_range tpb) as HL. pose proof Hg as Hg1. unfold ppq_ok in Hg1.
  destruct (insert_rest_step tpb b (commands s) (last_note_end s) t Hg ltac:(lia) Ht ltac:(lia) ltac:(lia) ltac:(lia))
    as (l & e' & Hi & He' & Hle & Hl & Habs & Hover).
  unfold on_program_change. rewrite Hi. cbn [bind].
  assert (Hin : exists i, (if ch =? 9 then Ok p else or_panic PIndex (nth_error INSTRUMENT_MAP (Z.to_nat p))) = Ok i /\ u8 i).
  { destruct (ch =? 9); [exists p; split; [reflexivity|unfold u8; lia]|].
    destruct (nth_error INSTRUMENT_MAP (Z.to_nat p)) eqn:E.
    - exists z. split; [reflexivity|]. apply nth_error_In in E. clear - E.
      revert z E. apply Forall_forall. repeat constructor; vm_compute; intuition discriminate.
    - apply nth_error_None in E. change (length INSTRUMENT_MAP) with 128%nat in E. lia. }
  destruct Hin as (i & -> & Hi8). cbn [bind].
  eexists. split; [reflexivity|]. cbn [note_start port_time commands last_note_end].
  split; [reflexivity|]. split; [reflexivity|]. split; [|split; assumption].
  apply emitted_control; auto; [exact no_slide_stable| |repeat split; repeat constructor; apply Hi8].
  destruct (rest_quiet l Hl) as (R1 & R2).
  apply emitted_quiet with (D := D) (e := last_note_end s); auto; try lia. exact no_slide_stable.
Qed.

(** How far the clock [e] may be ahead of the time [prev]: not at all, except for the rounding of the last note. *)
Definition overrun (tpb D prev : Z) (fin : option Z) (e : Z) : Prop :=
  (tpb mod 24 = 0 -> D = 0) /\
  (24 * (prev + 1) + tpb < 2 ^ 23 -> e <= prev \/ exists x, fin = Some x /\ 24 * e < 24 * x + tpb).
Lemma loss_zero tpb D : (tpb mod 24 = 0 -> D = 0) -> tpb mod 24 = 0 -> D + loss tpb = 0.
Proof. intros H E. rewrite (H E). unfold loss. rewrite E. reflexivity. Qed.
Lemma starts_before tpb tol D on fin t cmds e P done : ppq_ok tpb -> overrun tpb D on fin e ->
  clock_near tpb e on -> emitted tpb tol D cmds e P done -> long_enough tpb fin on t -> e < t.
Proof.
  intros Hg (HD & Ho) Hc (HE & _) [HL|(H1 & H2 & H3)].
  - unfold clock_near in Hc. lia.
  - destruct Ho as [Ho|(x & -> & Ho)]; [lia|lia|]. cbn [apart] in H3. destruct H3 as [H3|(H3 & n & H4)]; [lia|].
    rewrite (HD H3) in HE. unfold ppq_ok in Hg. assert (H5 : w_now (the_walk cmds) < n + 1) by nia. nia.
Qed.
Lemma overrun_off tpb D on fin e t e' : overrun tpb D on fin e -> clock_near tpb e' t -> overrun tpb (D + loss tpb) t (Some t) e'.
Proof.
  intros (HD & _) Hc. split; [apply loss_zero; assumption|]. intros _. right. exists t. split; [reflexivity|]. unfold clock_near in Hc. lia.
Qed.
Lemma overrun_on tpb D prev fin e t e' : overrun tpb D prev fin e -> near tpb prev t -> 0 <= e -> 1 <= tpb ->
  (24 * (t - e) < 2 ^ 23 -> e' <= Z.max e t) -> overrun tpb (D + loss tpb) t fin e'.
Proof.
  intros (HD & Ho) (Hn & _) He Hg Hm. split; [apply loss_zero; assumption|]. intros Ht. specialize (Hm ltac:(lia)).
  destruct (Ho ltac:(lia)) as [Ho1|(x & -> & Ho1)]; [left; lia|]. destruct (Z_le_gt_dec e' t); [left; assumption|].
  right. exists x. split; [reflexivity|lia].
Qed.

(** The invariant: [open] is the sounding note (on-time and key). *)
Definition tinv (tpb tol D prev : Z) (fin : option Z) (open : option (Z * Z)) (s : tstate) (done : list vnote) : Prop :=
  0 <= port_time s < 65536 /\ clock_near tpb (last_note_end s) prev /\ overrun tpb D prev fin (last_note_end s) /\
  match open with
  | None => note_start s = None /\ emitted tpb tol D (commands s) (last_note_end s) no_slide done
  | Some (on, k) =>
      prev = on /\ note_start s = Some (last_note_end s) /\ 0 <= k < 128 /\ 0 <= note_velocity s < 128 /\
      emitted tpb tol D (commands s) (last_note_end s) (fun w => slide_aims w k) done
  end.
Definition sounding (open : option (Z * Z)) (s : tstate) : option (Z * Z) :=
  match open with Some (on, _) => Some (on, note_velocity s) | None => None end.

Lemma emitted_weaken tpb tol D D' cmds e P done : D <= D' -> emitted tpb tol D cmds e P done -> emitted tpb tol D' cmds e P done.
Proof. intros H (A & B). split; [lia|assumption]. Qed.
Lemma tinv_weaken tpb tol D prev fin open s done : tinv tpb tol D prev fin open s done -> tinv tpb tol (D + loss tpb) prev fin open s done.
Proof.
  pose proof (loss_range tpb) as HL. assert (H : D <= D + loss tpb) by lia.
  intros (A & B & (O1 & O2) & C). split; [assumption|]. split; [assumption|].
  split; [split; [apply loss_zero; assumption|assumption]|]. destruct open as [[on k]|].
  - destruct C as (C1 & C2 & C3 & C4 & C5). repeat (split; [assumption|]). eapply emitted_weaken; eauto.
  - destruct C as (C1 & C2). split; [assumption|]. eapply emitted_weaken; eauto.
Qed.

Lemma tinv_control tpb tol D prev fin open s done c :
  tinv tpb tol D prev fin open s done -> slide_cmd (plain_cmd c) = false -> dur_ok (plain_cmd c) ->
  tinv tpb tol D prev fin open (set_commands s (commands s ++ [plain_cmd c])) done.
Proof.
  intros (P & A & O & H) H1 H2. unfold tinv. cbn [set_commands port_time last_note_end note_start commands].
  split; [assumption|]. split; [assumption|]. split; [assumption|]. destruct open as [[on k]|].
  - destruct H as (H3 & H4 & H5 & H6 & H7). repeat (split; [assumption|]). apply emitted_control; auto.
    apply slide_aims_stable.
  - destruct H as (H3 & H4). split; [assumption|]. apply emitted_control; auto. exact no_slide_stable.
Qed.

Lemma tinv_port tpb tol D prev fin open s done p pt :
  tinv tpb tol D prev fin open s done -> 0 <= pt < 65536 ->
  tinv tpb tol D prev fin open (mk_tstate (commands s) (note_start s) (note_velocity s) (last_note_end s) p pt) done.
Proof. intros (P & A & O & H) Hp. unfold tinv. cbn [port_time last_note_end note_start commands]. auto. Qed.

Lemma control_step tpb tol D b prev fin open s done ctl d :
  tinv tpb tol D prev fin open s done -> 0 <= d < 128 ->
  exists s', on_control_change b s ctl d = Ok s' /\ tinv tpb tol D prev fin open s' done /\ note_velocity s' = note_velocity s.
Proof.
  intros H Hd. unfold on_control_change. pose proof H as (Hp & _).
  destruct (ctl =? 5); [|destruct (ctl =? 7); [|destruct (ctl =? 37); [|destruct (ctl =? 65)]]].
  - eexists. split; [reflexivity|]. split; [|reflexivity]. apply tinv_port; [assumption|].
    apply (lor_bound _ _ 16); [lia| |].
    + unfold as_u. apply Z.mod_pos_bound. lia.
    + assert (0 <= Z.land (port_time s) 0xFF < 2 ^ 8) by (apply land_bound; lia). lia.
  - rewrite arith_exact by lia. cbn [bind]. eexists. split; [reflexivity|]. split; [|reflexivity].
    apply tinv_control; [assumption|reflexivity|]. repeat split; repeat constructor; lia.
  - eexists. split; [reflexivity|]. split; [|reflexivity]. apply tinv_port; [assumption|].
    apply (lor_bound _ _ 16); [lia| |lia]. apply land_bound; lia.
  - eexists. split; [reflexivity|]. split; [|reflexivity]. now apply tinv_port.
  - eexists. split; [reflexivity|]. split; [assumption|reflexivity].
Qed.

Lemma tempo_byte_u8 u tf : u8 (tempo_byte u tf).
Proof.
  unfold u8, tempo_byte. generalize (f32_mul (f32_ceil (f32_div (f32_of_Z 60000000) (f32_of_Z u))) tf). intros x.
  destruct x as [sg|sg| |sg m e]; cbn [f32_as_uint]; try lia; destruct sg; try lia.
  destruct (0 <=? e) eqn:E.
  - assert (0 < 2 ^ e) by (apply Z.pow_pos_nonneg; lia). assert (0 <= Z.pos m * 2 ^ e) by nia. lia.
  - assert (0 <= Z.pos m / 2 ^ (- e)); [|lia]. apply Z.div_pos; [lia|]. apply Z.pow_pos_nonneg; lia.
Qed.
Lemma meta_step tpb tol D prev fin open s done event data tf :
  tinv tpb tol D prev fin open s done -> (event = SetTempo -> (3 <= length data)%nat) ->
  exists s', on_meta s event data tf = Ok s' /\ tinv tpb tol D prev fin open s' done /\ note_velocity s' = note_velocity s.
Proof.
  intros H Hd. destruct event as [|kd]; cbn [on_meta].
  - specialize (Hd eq_refl). destruct data as [|d0 [|d1 [|d2 data]]]; cbn [length] in Hd; try lia.
    cbn [usec_of_data nth_error or_panic bind]. eexists. split; [reflexivity|]. split; [|reflexivity].
    apply tinv_control; [assumption|reflexivity|]. repeat split. repeat constructor; apply tempo_byte_u8.
  - eexists. split; [reflexivity|]. split; [assumption|reflexivity].
Qed.

Lemma track_loop tpb tol b tf max_time : ppq_ok tpb -> forall events D prev fin open s done,
  voice_from tpb max_time prev fin open events -> tinv tpb tol D prev fin open s done ->
  tpb + D + loss tpb * Z.of_nat (length events) <= tol -> tpb + loss tpb <= tol ->
  exists s' prev' fin' open', ofold (track_step b tpb tf) events s = Ok s' /\
    tinv tpb tol (D + loss tpb * Z.of_nat (length events)) prev' fin' open' s' (done ++ notes_from (sounding open s) events) /\
    near tpb prev' max_time /\ max_time < 2 ^ 31.
Proof.
  intros Hg. pose proof (loss_range tpb) as HL. induction events as [|[m t] r IH]; intros D prev fin open s done HV HI Htol Htol1.
  { exists s, prev, fin, open. cbn [voice_from] in HV. cbn [ofold notes_from length]. rewrite app_nil_r.
    replace (D + loss tpb * Z.of_nat 0) with D by lia. tauto. }
  cbn [voice_from] in HV. destruct HV as (Hm & Ht & HV).
  change (list (message * Z)) with (list tmsg) in *. change (message * Z)%type with tmsg in *.
  cbn [length] in Htol |- *. rewrite Nat2Z.inj_succ, Z.mul_succ_r in Htol |- *.
  rewrite (Z.add_comm (loss tpb * _) (loss tpb)) in Htol |- *.
  assert (Hr0 : 0 <= loss tpb * Z.of_nat (@length tmsg r)) by (apply Z.mul_nonneg_nonneg; lia).
  rewrite !Z.add_assoc in *.
  assert (IH' : forall prev fin open s done, voice_from tpb max_time prev fin open r -> tinv tpb tol D prev fin open s done ->
    exists s' prev' fin' open', ofold (track_step b tpb tf) r s = Ok s' /\
    tinv tpb tol (D + loss tpb + loss tpb * Z.of_nat (@length tmsg r)) prev' fin' open' s' (done ++ notes_from (sounding open s) r) /\
    near tpb prev' max_time /\ max_time < 2 ^ 31).
  { intros prev0 fin0 open0 s0 done0 HV0 HI0.
    apply (IH (D + loss tpb) prev0 fin0 open0 s0 done0 HV0); [|lia|lia].
    apply tinv_weaken. assumption. }
  specialize (IH (D + loss tpb)).
  destruct m as [dt ev data|dt ev|dt ev data|].
  - (* meta *)
    destruct (meta_step tpb tol D prev fin open s done ev data tf HI) as (s1 & H1 & H2 & H3).
    { intros ->. exact Hm. }
    cbn [ofold track_step]. rewrite H1. cbn [bind].
    destruct (IH' prev fin open s1 done HV H2) as (s' & p' & f' & o' & A & B & C). exists s', p', f', o'.
    split; [exact A|]. split; [|exact C]. cbn [notes_from]. unfold sounding in *. now rewrite H3 in B.
  - destruct ev as [ch k v|ch k v|ch k v|ch ctl d|ch p|ch p|ch d|ch]; cbn [ofold track_step].
    + (* NoteOff *)
      destruct open as [[on k']|].
      * destruct HV as (<- & Hlen & Hnear & HV). destruct HI as (Hp & Habs & Hov & Hprev & Hst & Hk & Hvel & HE). subst prev.
        destruct (note_off_step tpb tol D b s k t (last_note_end s) on done Hg Hst Ht Hk HE ltac:(lia) ltac:(lia) Habs (starts_before _ _ _ _ _ _ _ _ _ _ Hg Hov Habs HE Hlen) Hnear Hvel)
          as (s1 & H1 & H2 & H3 & H4 & H5).
        rewrite H1. cbn [bind].
        assert (HI1 : tinv tpb tol (D + loss tpb) t (Some t) None s1 (done ++ [mk_vnote on t k (note_velocity s)])).
        { split; [lia|]. split; [assumption|]. split; [exact (overrun_off _ _ _ _ _ _ _ Hov H5)|]. auto. }
        destruct (IH t (Some t) None s1 _ HV HI1 ltac:(lia) ltac:(lia)) as (s' & p' & f' & o' & A & B & C). exists s', p', f', o'.
        split; [exact A|]. split; [|exact C]. cbn [sounding notes_from] in *. now rewrite <- app_assoc in B.
      * destruct HI as (Hp & Habs & Hov & Hst & HE). unfold on_note_off. rewrite Hst. cbn [bind].
        destruct (IH' prev fin None s done HV) as (s' & p' & f' & o' & A & B & C); [split; auto|]. exists s', p', f', o'.
        split; [exact A|]. split; [|exact C]. exact B.
    + (* NoteOn *)
      destruct HV as (-> & Hnear & HV). destruct HI as (Hp & Habs & Hov & Hst & HE). destruct Hm as (Hk & Hv).
      destruct (note_on_step tpb tol D b s k v t prev done Hg Hst Ht Hk Hp HE Habs Hnear)
        as (s1 & H1 & H2 & H3 & H4 & H5 & H6 & H7).
      rewrite H1. cbn [bind].
      assert (HI1 : tinv tpb tol (D + loss tpb) t fin (Some (t, k)) s1 done).
      { split; [lia|]. split; [assumption|]. split; [apply (overrun_on tpb D prev fin (last_note_end s)); try assumption; [apply HE|apply Hg]|]. rewrite H3. auto. }
      destruct (IH t fin (Some (t, k)) s1 _ HV HI1 ltac:(lia) ltac:(lia)) as (s' & p' & f' & o' & A & B & C). exists s', p', f', o'.
      split; [exact A|]. split; [|exact C]. cbn [sounding notes_from] in *. now rewrite H3 in B.
    + destruct (IH' prev fin open s done HV HI) as (s' & p' & f' & o' & A & B & C). exists s', p', f', o'. auto.
    + (* ControlChange *)
      destruct (control_step tpb tol D b prev fin open s done ctl d HI Hm) as (s1 & H1 & H2 & H3).
      rewrite H1. cbn [bind].
      destruct (IH' prev fin open s1 done HV H2) as (s' & p' & f' & o' & A & B & C). exists s', p', f', o'.
      split; [exact A|]. split; [|exact C]. cbn [notes_from]. unfold sounding in *. now rewrite H3 in B.
    + (* ProgramChange *)
      destruct HV as (-> & Hnear & HV). destruct HI as (Hp & Habs & Hov & Hst & HE).
      destruct (program_step tpb tol D b s ch p t prev done Hg Ht Hm HE Habs Hnear) as (s1 & H1 & H2 & H3 & H4 & H5 & H6).
      rewrite H1. cbn [bind].
      assert (HI1 : tinv tpb tol (D + loss tpb) t fin None s1 done).
      { split; [lia|]. split; [assumption|]. split; [apply (overrun_on tpb D prev fin (last_note_end s)); try assumption; [apply HE|apply Hg]|]. split; [congruence|assumption]. }
      destruct (IH t fin None s1 _ HV HI1 ltac:(lia) ltac:(lia)) as (s' & p' & f' & o' & A & B & C). exists s', p', f', o'.
      split; [exact A|]. split; [|exact C]. exact B.
    + destruct (IH' prev fin open s done HV HI) as (s' & p' & f' & o' & A & B & C). exists s', p', f', o'. auto.
    + destruct (IH' prev fin open s done HV HI) as (s' & p' & f' & o' & A & B & C). exists s', p', f', o'. auto.
    + destruct (IH' prev fin open s done HV HI) as (s' & p' & f' & o' & A & B & C). exists s', p', f', o'. auto.
  - destruct (IH' prev fin open s done HV HI) as (s' & p' & f' & o' & A & B & C). exists s', p', f', o'. auto.
  - destruct (IH' prev fin open s done HV HI) as (s' & p' & f' & o' & A & B & C). exists s', p', f', o'. auto.
Qed.

Lemma total_steps_walk l : w_now (the_walk l) = total_steps l.
Proof. unfold the_walk. rewrite walk_now. reflexivity. Qed.

Lemma tolerance_loss tpb n : tolerance tpb n = tpb + loss tpb * Z.of_nat n.
Proof. unfold tolerance, loss. destruct (_ =? _); lia. Qed.

Lemma track_converts b tpb tf events max_time :
  1 <= tpb <= 65535 -> voice_ok tpb max_time events ->
  exists tr, track_new b events tpb max_time tf = Ok tr /\
    Forall2 (renders tpb (tolerance tpb (length events))) (heads tr) (notes_of events) /\
    (tr <> [] -> Z.abs (total_steps tr * tpb - 24 * max_time) < tolerance tpb (S (length events))) /\
    Forall dur_ok' tr.
Proof.
  intros Hg HV.
  destruct events as [|ev0 events0].
  { exists []. split; [reflexivity|]. split; [constructor|]. split; [congruence|constructor]. }
  set (events := ev0 :: events0) in *.
  assert (Hlen : 1 <= Z.of_nat (length events)) by (unfold events; cbn [length]; lia). clearbody events.
  pose proof (loss_range tpb) as HL.
  set (tol := tolerance tpb (length events)).
  assert (Htol : tol = tpb + loss tpb * Z.of_nat (length events)) by apply tolerance_loss.
  destruct (track_loop tpb tol b tf max_time Hg events 0 0 None None tstate0 [] HV) as (s & prev & fin & open & Hrun & HI & Hnear & Hmt).
  { split; [cbn; lia|]. split; [unfold clock_near; cbn [tstate0 last_note_end]; lia|]. split; [split; [reflexivity|intros _; left; cbn [tstate0 last_note_end]; lia]|]. split; [reflexivity|].
    unfold emitted. change (w_now (the_walk (commands tstate0))) with 0. cbn [tstate0 last_note_end]. 
    repeat split; try lia; constructor. }
  { lia. } { nia. }
  rewrite Z.add_0_l in HI.
  cbn [sounding] in HI. change (notes_from None events) with (notes_of events) in HI. cbn [app] in HI.
  unfold track_new. rewrite Hrun. cbn [bind].
  set (D := loss tpb * Z.of_nat (length events)) in *.
  assert (HE : exists P, emitted tpb tol D (commands s) (last_note_end s) P (notes_of events) /\ forall w w', w_slide w' = w_slide w -> P w -> P w').
  { destruct HI as (_ & _ & _ & HI). destruct open as [[on k]|].
    - exists (fun w => slide_aims w k). split; [tauto|]. apply slide_aims_stable.
    - exists no_slide. split; [tauto|]. exact no_slide_stable. }
  destruct HE as (P & HE & HP). destruct HI as (_ & Habs & _). pose proof HE as (_ & He0 & _).
  destruct Hnear as (N1 & N2 & N3). unfold clock_near in Habs.
  destruct (commands s) as [|c0 cs] eqn:Ec.
  { destruct HE as (_ & _ & _ & HF & _). exists []. split; [reflexivity|]. split; [exact HF|]. split; [congruence|constructor]. }
  rewrite <- Ec in *. clear Ec c0 cs.
  assert (0 <= D) by (apply Z.mul_nonneg_nonneg; lia).
  assert (Hprev : 0 <= max_time).
  { destruct (Z_lt_ge_dec max_time 0); [exfalso|lia]. clear - HV l. unfold voice_ok in HV.
    assert (HH : forall prev fin open, 0 <= prev -> voice_from tpb max_time prev fin open events -> False).
    { clear HV. induction events as [|[m t] r IH]; intros prev fin open Hp HV.
      - destruct HV as ((? & _) & _). lia.
      - cbn [voice_from] in HV. destruct HV as (_ & Ht & HV).
        destruct m as [? ? ?|? ev|? ? ?|]; [eapply IH; eauto| |eapply IH; eauto|eapply IH; eauto].
        destruct ev; try (eapply IH; eauto; fail).
        + destruct open as [[? ?]|]; [destruct HV as (_ & _ & _ & HV); apply (IH t (Some t) None); [lia|assumption]|].
          apply (IH prev fin None); assumption.
        + destruct HV as (_ & _ & HV). eapply IH; [|eauto]; lia.
        + destruct HV as (_ & _ & HV). eapply IH; [|eauto]; lia. }
    apply (HH 0 None None); [lia|assumption]. }
  assert (HF : exists l e', (if last_note_end s <? max_time
      then insert_rest b (commands s) (last_note_end s) max_time tpb else Ok (commands s, last_note_end s)) = Ok (commands s ++ l, e') /\
      emitted tpb tol (D + loss tpb) (commands s ++ l) e' P (notes_of events) /\ clock_near tpb e' max_time).
  { unfold clock_near. destruct (last_note_end s <? max_time) eqn:E.
    - destruct (insert_rest_step tpb b (commands s) (last_note_end s) max_time Hg ltac:(lia) ltac:(lia) ltac:(lia) ltac:(lia) ltac:(lia))
        as (l & e' & Hi & He' & Hle & Hl & Ha & _). exists l, e'. split; [assumption|]. split; [|assumption].
      destruct (rest_quiet l Hl) as (R1 & R2).
      apply emitted_quiet with (D := D) (e := last_note_end s); auto; lia.
    - exists [], (last_note_end s). rewrite app_nil_r. split; [reflexivity|]. split; [|lia].
      apply emitted_weaken with (D := D); [lia|assumption]. }
  destruct HF as (l & e' & -> & (F1 & F2 & F3 & F4 & F5) & F6). cbn [bind fst]. unfold clock_near in F6.
  destruct (sustain_walk _ (commands s ++ l) (le_n _) F3) as (tr & Hs & Hw & Hd').
  exists tr. split; [exact Hs|]. unfold heads. unfold the_walk in *. rewrite Hw. split; [assumption|].
  split; [|assumption].
  intros _. replace (total_steps tr) with (w_now (fold_left walk_step tr walk0)) by apply total_steps_walk.
  rewrite Hw, tolerance_loss. rewrite Nat2Z.inj_succ, Z.mul_succ_r. fold D. lia.
Qed.

(** For showing that concrete voices of long notes are well-behaved. *)
Ltac voice_case :=
  unfold voice_ok; cbn [app voice_from midi_valid length]; unfold near;
  repeat match goal with |- _ /\ _ => split | |- long_enough _ _ _ _ => left | |- True => exact I end; try reflexivity; lia.
