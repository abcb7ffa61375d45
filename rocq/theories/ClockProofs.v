(** ClockProofs.v: when a checked build aborts on a voice (C10). *)
From Coq Require Import ZArith List Bool Lia ZifyBool ZifyNat.
From Verif Require Import Base F32 ProofLib Messages Command Track SpecTime SpecVoice SpecExact DurationProofs SplitProofs ExactProofs.
Import ListNotations.
Open Scope Z_scope.

Lemma arith_ok b bits x : 0 <= x < 2 ^ bits -> arith b bits x = Ok x.
Proof. intros H. unfold arith. replace ((0 <=? x) && (x <? 2 ^ bits)) with true by lia. reflexivity. Qed.
Lemma duration_exact b t tpb (up : bool) : 1 <= tpb <= 65535 -> 0 <= t -> 24 * t < 2 ^ 23 ->
  let q := if up then (24 * t + tpb - 1) / tpb else 24 * t / tpb in
  get_duration b t tpb up = Ok (split_length q (q * tpb / 24)) /\ 0 <= q /\ 0 <= q * tpb / 24 <= t + (if up then tpb / 24 else 0) /\ 0 <= d_length (split_length q (q * tpb / 24)).
Proof.
  intros Ht H0 H1 q. destruct (quantized_exact t tpb Ht H0 H1) as [E1 E2].
  assert (Eq : quantized_length t tpb up = q) by (unfold q; destruct up; assumption).
  assert (Hq : 0 <= q /\ q * tpb <= 24 * t + (if up then tpb - 1 else 0)).
  { unfold q. destruct up; [pose proof (Z.mul_div_le (24 * t + tpb - 1) tpb ltac:(lia))|pose proof (Z.mul_div_le (24 * t) tpb ltac:(lia))];
      (split; [apply Z.div_pos; lia|lia]). }
  assert (Hqt : 0 <= q * tpb) by (apply Z.mul_nonneg_nonneg; lia).
  unfold get_duration. rewrite Eq. rewrite arith_ok by (destruct up; lia). cbn [bind]. split; [reflexivity|]. split; [lia|]. split; [|apply split_length_ranges; lia].
  destruct up; Z.div_mod_to_equations; lia.
Qed.
Lemma split_ticks q qt : quantized_ticks (split_length q qt) = qt.
Proof. unfold split_length. destruct (_ <? _); [destruct (_ =? _)|]; reflexivity. Qed.
Lemma rest_checked b cmds c t tpb : 1 <= tpb <= 65535 -> 0 <= c -> 24 * t < 2 ^ 23 -> Forall nice cmds ->
  exists c1, insert_rest b cmds c t tpb = Ok (c1, after_rest tpb c t) /\ Forall nice c1 /\ c <= after_rest tpb c t <= Z.max c t.
Proof.
  intros Ht Hc Hb Hn. unfold insert_rest, after_rest. destruct (Z.ltb_spec c t) as [Hlt|Hge]; [|exists cmds; split; [reflexivity|]; split; [exact Hn|lia]].
  destruct (duration_exact b (t - c) tpb false Ht ltac:(lia) ltac:(lia)) as (-> & Hq & Hqt & Hl). cbn [bind]. rewrite split_ticks.
  set (q := 24 * (t - c) / tpb) in *. set (d := split_length q (q * tpb / 24)) in *. rewrite arith_ok by lia. cbn [bind]. eexists. split; [reflexivity|]. split; [|lia].
  assert (H1 : Forall nice (cmds ++ repeat (rest_cmd 127) (Z.to_nat (overflow_count d)))).
  { apply Forall_app. split; [exact Hn|]. apply Forall_forall. intros x Hx. apply repeat_spec in Hx. subst x. exists 127. split; [reflexivity|lia]. }
  destruct (0 <? d_length d) eqn:E; [|exact H1]. apply Forall_app. split; [exact H1|]. constructor; [|constructor].
  exists (d_length d). split; [reflexivity|lia].
Qed.
Lemma slide_checked b s cmds k tpb : 1 <= tpb <= 65535 -> 0 <= port_time s < 65536 -> 0 <= k < 128 -> Forall nice cmds ->
  exists c2, push_slide b s cmds k tpb = Ok c2 /\ Forall nice c2.
Proof.
  intros Ht Hp Hk H. unfold push_slide. destruct (portamento s); [|eauto]. destruct (last_opt cmds) as [lc|]; [|eauto].
  destruct (duration_exact b (port_time s) tpb true Ht ltac:(lia) ltac:(lia)) as (-> & _). cbn [bind]. rewrite arith_ok by lia. cbn [bind].
  destruct (create_pitch_slide lc _ _) as [sl|] eqn:E; [|eauto]. eexists. split; [reflexivity|]. apply Forall_app. split; [exact H|].
  constructor; [|constructor]. unfold create_pitch_slide in E. unfold nice. destruct (cmd lc), (duration lc); try discriminate; injection E as <-; exact I.
Qed.
Lemma lor_range x y : 0 <= x < 65536 -> 0 <= y < 65536 -> 0 <= Z.lor x y < 65536.
Proof.
  intros Hx Hy. split; [apply Z.lor_nonneg; lia|]. change 65536 with (2 ^ 16) in *. destruct (Z.eq_dec (Z.lor x y) 0) as [->|Hz]; [lia|].
  assert (0 <= Z.lor x y) by (apply Z.lor_nonneg; lia). apply Z.log2_lt_pow2; [lia|]. rewrite Z.log2_lor by lia.
  apply Z.max_lub_lt; [destruct (Z.eq_dec x 0) as [->|]|destruct (Z.eq_dec y 0) as [->|]]; try (cbn; lia); apply Z.log2_lt_pow2; lia.
Qed.
Lemma land_range x m : 0 <= x < 65536 -> 0 <= m -> 0 <= Z.land x m < 65536.
Proof.
  intros Hx Hm. split; [apply Z.land_nonneg; lia|]. change 65536 with (2 ^ 16) in *. assert (H0 : 0 <= Z.land x m) by (apply Z.land_nonneg; lia).
  destruct (Z.eq_dec (Z.land x m) 0) as [->|Hz]; [lia|]. apply Z.log2_lt_pow2; [lia|].
  destruct (Z.eq_dec x 0) as [->|Hx0]; [rewrite Z.land_0_l in Hz; lia|].
  eapply Z.le_lt_trans; [apply Z.log2_land; lia|]. eapply Z.le_lt_trans; [apply Z.le_min_l|]. apply Z.log2_lt_pow2; lia.
Qed.

(** What holds of the converter's state, with the specification's clock. *)
Definition at_clock (tpb T clock : Z) (start : option Z) (s : tstate) : Prop :=
  note_start s = start /\ last_note_end s = clock /\ 0 <= clock <= T + tpb / 24 /\ (forall x, start = Some x -> 0 <= x <= T + tpb / 24) /\ 0 <= port_time s < 65536 /\ Forall nice (commands s).
Lemma step_checked tpb tf T clock start s m t r : 1 <= tpb <= 65535 -> 0 <= t <= T -> 24 * T < 2 ^ 23 -> midi_valid m -> at_clock tpb T clock start s ->
  (exists s' clock' start', track_step Debug tpb tf s (m, t) = Ok s' /\ at_clock tpb T clock' start' s' /\ fate tpb clock start ((m, t) :: r) = fate tpb clock' start' r) \/
  (track_step Debug tpb tf s (m, t) = Err EMoreThanOneVoice /\ fate tpb clock start ((m, t) :: r) = TwoNotes) \/
  (track_step Debug tpb tf s (m, t) = Panic POverflow /\ fate tpb clock start ((m, t) :: r) = Crashes).
Proof.
  intros Htp Ht HT Hv HC. pose proof HC as (Hs & Hl & Hcl & Hst & Hp & Hn). cbn [fate].
  assert (Hsame : (exists s' clock' start', Ok s = Ok s' /\ at_clock tpb T clock' start' s' /\ fate tpb clock start r = fate tpb clock' start' r)) by (exists s, clock, start; auto).
  assert (Hpush : forall c, (match c with Note _ | Rest => False | _ => True end) -> at_clock tpb T clock start (set_commands s (commands s ++ [plain_cmd c]))).
  { intros c Hc. split; [exact Hs|]. split; [exact Hl|]. split; [exact Hcl|]. split; [exact Hst|]. split; [exact Hp|]. apply plain_nice; assumption. }
  destruct m as [d ev data|d ev|d ev data|]; cbn [track_step]; try (left; exact Hsame).
  - left. destruct ev as [|]; cbn [on_meta midi_valid] in *; [|exact Hsame].
    destruct data as [|x [|y [|z l]]]; cbn [length] in Hv; try lia. unfold usec_of_data. cbn [nth_error or_panic bind].
    eexists. exists clock, start. split; [reflexivity|]. split; [|reflexivity]. apply Hpush. exact I.
  - destruct ev; cbn [midi_valid] in Hv; try (left; exact Hsame).
    + unfold on_note_off. rewrite Hs. destruct start as [st|]; [|left; exact Hsame]. specialize (Hst st eq_refl).
      destruct (Z.ltb_spec t st) as [Hlt|Hge]; [right; right; rewrite ExactProofs.arith_debug by lia; auto|].
      left. rewrite arith_ok by lia. cbn [bind]. destruct (duration_exact Debug (t - st) tpb true Htp ltac:(lia) ltac:(lia)) as (-> & Hq & Hqt & Hd). cbn [bind]. rewrite split_ticks.
      set (q := (24 * (t - st) + tpb - 1) / tpb) in *. set (dr := split_length q (q * tpb / 24)) in *.
      assert (Hc : exists c, (c = Tie \/ exists p, c = Note p) /\ (if match last_opt (commands s) with Some c => is_slide c | None => false end then Ok Tie
                else let* p := arith Debug 8 (note + 104) in Ok (Note p)) = Ok c).
      { destruct (match last_opt (commands s) with Some c => is_slide c | None => false end); [exists Tie; auto|].
        rewrite arith_ok by lia. cbn [bind]. eauto. }
      destruct Hc as (c & Hc & ->). cbn [bind]. assert (Htb : tpb / 24 <= 65535) by (Z.div_mod_to_equations; lia). rewrite arith_ok by lia. cbn [bind].
      eexists. exists (after_note tpb st t), None. split; [reflexivity|]. split; [|reflexivity]. unfold at_clock, after_note. cbn [note_start last_note_end port_time commands]. fold q.
      split; [reflexivity|]. split; [reflexivity|]. split; [lia|]. split; [discriminate|]. split; [exact Hp|]. apply Forall_app. split; [exact Hn|].
      assert (Hties : Forall nice (overflow_ties (overflow_count dr) (d_length dr))).
      { unfold overflow_ties. destruct (0 <? overflow_count dr); [|constructor]. apply Forall_app. split.
        - apply Forall_forall. intros x Hx. apply repeat_spec in Hx. subst x. exact I.
        - constructor; [exact I|constructor]. }
      constructor; [|exact Hties]. unfold nice. cbn [cmd duration]. destruct Hc as [->|[p ->]]; [exact I|].
      destruct (0 <? overflow_count dr); (eexists; split; [reflexivity|lia]).
    + unfold on_note_on. rewrite Hl. assert (Htb : 0 <= tpb / 24) by (Z.div_mod_to_equations; lia).
      destruct (rest_checked Debug (commands s) clock t tpb Htp ltac:(lia) ltac:(lia) Hn) as (c1 & -> & H1 & H1'). cbn [bind].
      destruct (slide_checked Debug s c1 note tpb Htp Hp ltac:(lia) H1) as (c2 & -> & H2). cbn [bind]. rewrite Hs.
      destruct start as [st|]; [right; left; auto|]. left. eexists. exists (after_rest tpb clock t), (Some (after_rest tpb clock t)). split; [reflexivity|]. split; [|reflexivity].
      unfold at_clock. cbn [note_start last_note_end port_time commands]. split; [reflexivity|]. split; [reflexivity|]. split; [lia|]. split; [intros x E; injection E as <-; lia|]. split; [exact Hp|exact H2].
    + left. unfold on_control_change. destruct (_ =? 5).
      { eexists. exists clock, start. split; [reflexivity|]. split; [|reflexivity]. unfold at_clock. cbn [note_start last_note_end port_time commands].
        split; [exact Hs|]. split; [exact Hl|]. split; [exact Hcl|]. split; [exact Hst|]. split; [|exact Hn].
        apply lor_range; [unfold as_u; apply Z.mod_pos_bound; lia|apply land_range; lia]. }
      destruct (_ =? 7).
      { rewrite arith_ok by lia. cbn [bind]. eexists. exists clock, start. split; [reflexivity|]. split; [|reflexivity]. apply Hpush. exact I. }
      destruct (_ =? 37).
      { eexists. exists clock, start. split; [reflexivity|]. split; [|reflexivity]. unfold at_clock. cbn [note_start last_note_end port_time commands].
        split; [exact Hs|]. split; [exact Hl|]. split; [exact Hcl|]. split; [exact Hst|]. split; [|exact Hn].
        apply lor_range; [apply land_range; lia|lia]. }
      destruct (_ =? 65); [|exact Hsame]. eexists. exists clock, start. split; [reflexivity|]. split; [|reflexivity]. unfold at_clock. cbn [note_start last_note_end port_time commands]. auto 10.
    + left. unfold on_program_change. rewrite Hl. assert (Htb : 0 <= tpb / 24) by (Z.div_mod_to_equations; lia).
      destruct (rest_checked Debug (commands s) clock t tpb Htp ltac:(lia) ltac:(lia) Hn) as (c1 & -> & H1 & H1'). cbn [bind].
      assert (Hi : exists i, (if ch =? 9 then Ok program else or_panic PIndex (nth_error INSTRUMENT_MAP (Z.to_nat program))) = Ok i).
      { destruct (ch =? 9); [eauto|]. destruct (nth_error INSTRUMENT_MAP (Z.to_nat program)) eqn:E; [cbn; eauto|].
        apply nth_error_None in E. change (length INSTRUMENT_MAP) with 128%nat in E. lia. }
      destruct Hi as [i ->]. cbn [bind]. eexists. exists (after_rest tpb clock t), start. split; [reflexivity|]. split; [|destruct start; reflexivity].
      unfold at_clock. cbn [note_start last_note_end port_time commands]. split; [exact Hs|]. split; [reflexivity|]. split; [lia|]. split; [exact Hst|]. split; [exact Hp|].
      apply plain_nice; [exact H1|exact I].
Qed.
Lemma loop_checked tpb tf T events : 1 <= tpb <= 65535 -> 24 * T < 2 ^ 23 -> Forall (fun e => midi_valid (fst e) /\ 0 <= snd e <= T) events ->
  forall s clock start, at_clock tpb T clock start s ->
  match fate tpb clock start events with
  | Converts => exists s' clock' start', ofold (track_step Debug tpb tf) events s = Ok s' /\ at_clock tpb T clock' start' s'
  | TwoNotes => ofold (track_step Debug tpb tf) events s = Err EMoreThanOneVoice
  | Crashes => ofold (track_step Debug tpb tf) events s = Panic POverflow
  end.
Proof.
  intros Htp HT HF. induction HF as [|[m t] r [Hv Ht] _ IH]; intros s clock start HC; [cbn [fate ofold]; eauto|]. cbn [fst snd] in Hv, Ht. cbn [ofold].
  destruct (step_checked tpb tf T clock start s m t r Htp Ht HT Hv HC) as [(s' & c' & st' & -> & H1 & ->)|[[-> ->]|[-> ->]]]; cbn [bind]; [apply IH; exact H1|reflexivity|reflexivity].
Qed.
Lemma checked_exact tpb tf events max_time T : 1 <= tpb <= 65535 -> 24 * T < 2 ^ 23 -> max_time <= T -> Forall (fun e => midi_valid (fst e) /\ 0 <= snd e <= T) events ->
  match fate tpb 0 None events with
  | Converts => exists tr, track_new Debug events tpb max_time tf = Ok tr
  | TwoNotes => track_new Debug events tpb max_time tf = Err EMoreThanOneVoice
  | Crashes => track_new Debug events tpb max_time tf = Panic POverflow
  end.
Proof.
  intros Htp HT Hm HF. unfold track_new.
  assert (H0 : events <> [] -> at_clock tpb T 0 None tstate0).
  { intros Hne. assert (0 <= T) by (destruct HF as [|? ? [_ ?] _]; [congruence|lia]). assert (0 <= tpb / 24) by (Z.div_mod_to_equations; lia).
    unfold at_clock, tstate0. cbn [note_start last_note_end port_time commands]. split; [reflexivity|]. split; [reflexivity|]. split; [lia|]. split; [discriminate|]. split; [lia|constructor]. }
  destruct events as [|e l]; [cbn; eauto|]. specialize (H0 ltac:(discriminate)). pose proof (loop_checked tpb tf T (e :: l) Htp HT HF tstate0 0 None H0) as H.
  destruct (fate tpb 0 None (e :: l)); [|rewrite H; reflexivity|rewrite H; reflexivity]. destruct H as (s & clock & start & -> & _ & Hl & Hcl & _ & _ & Hn). cbn [bind].
  destruct (commands s) as [|c0 cs]; [eauto|]. set (cm := c0 :: cs) in *.
  assert (Hr : exists c1 e1, (if last_note_end s <? max_time then insert_rest Debug cm (last_note_end s) max_time tpb else Ok (cm, last_note_end s)) = Ok (c1, e1) /\ Forall nice c1).
  { destruct (_ <? _); [|eauto]. destruct (rest_checked Debug cm (last_note_end s) max_time tpb Htp ltac:(lia) ltac:(lia) Hn) as (c1 & -> & H1 & _). eauto. }
  destruct Hr as (c1 & e1 & -> & H1). cbn [bind fst]. eapply sustain_nice; eauto.
Qed.
