(** ExactProofs.v: exact conditions for C07, C10 and C49. *)
From Coq Require Import ZArith List Bool Lia ZifyBool ZifyNat.
From Verif Require Import Base F32 ProofLib Messages Command Track Midi SpecTime SpecVoice SpecExact SpecMidi SpecNotes SpecVoices
  SplitProofs MergeProofs LoopProofs VoiceProofs BaseVoiceProofs FileExamples ReadProofs ReadProofs2 TotalProofs.
Ltac Zify.zify_post_hook ::= Z.div_mod_to_equations.

(** ** C07: the split loses nothing up to 32512 steps, and loses steps beyond. *)
Lemma split_length_exact q qt : 0 <= q ->
  let d := split_length q qt in d_length d + 127 * overflow_count d = q <-> q <= 32512.
Proof.
  intros Hq. cbn zeta. split; [|intros H; apply (split_length_spec q qt); lia].
  intros H. destruct (split_length_ranges q qt Hq) as (_ & H1 & H2 & _). lia.
Qed.
Lemma rest_exact b cmds e t tpb cmds' e' :
  insert_rest b cmds e t tpb = Ok (cmds', e') -> e < t ->
  (total_steps cmds' = total_steps cmds + quantized_length (t - e) tpb false <-> quantized_length (t - e) tpb false <= 32512).
Proof.
  intros H He. unfold insert_rest in H. destruct (e <? t) eqn:E; [|lia].
  inv_bind H. rename a into d. inv_bind H. injection H as <- _.
  apply get_duration_ok in Ha. destruct Ha as (prod & _ & ->).
  set (q := quantized_length (t - e) tpb false) in *. pose proof (quantized_nonneg (t - e) tpb false) as Hnn. fold q in Hnn.
  rewrite <- (split_length_exact q (prod / 24) Hnn). destruct (split_length_ranges q (prod / 24) Hnn) as (_ & H1 & H2 & _).
  set (d := split_length q (prod / 24)) in *.
  destruct (0 <? d_length d) eqn:E2; rewrite ?total_steps_app, total_steps_repeat; change (steps (rest_cmd 0x7f)) with 127;
    try change (total_steps [rest_cmd (d_length d)]) with (d_length d + 0); lia.
Qed.
Lemma note_exact b s note t tpb s' start :
  on_note_off b s note t tpb = Ok s' -> note_start s = Some start -> start <= t -> t - start < 2 ^ 32 ->
  (total_steps (commands s') = total_steps (commands s) + quantized_length (t - start) tpb true <->
   quantized_length (t - start) tpb true <= 32512).
Proof.
  intros H Hs Hle Hlt. unfold on_note_off in H. rewrite Hs in H.
  rewrite ProofLib.arith_exact in H by lia. cbn [bind] in H.
  inv_bind H. rename a into d. inv_bind H. rename a into c. inv_bind H. injection H as <-.
  apply get_duration_ok in Ha. destruct Ha as (prod & _ & ->).
  set (q := quantized_length (t - start) tpb true) in *. pose proof (quantized_nonneg (t - start) tpb true) as Hnn. fold q in Hnn.
  rewrite <- (split_length_exact q (prod / 24) Hnn). destruct (split_length_ranges q (prod / 24) Hnn) as (_ & H1 & H2 & _).
  set (d := split_length q (prod / 24)) in *. cbn [commands]. rewrite total_steps_app, total_steps_cons. cbn [steps duration].
  unfold overflow_ties. destruct (0 <? overflow_count d) eqn:E.
  - rewrite total_steps_app, total_steps_repeat. change (steps (tie_cmd 0x7f)) with 127.
    change (total_steps [tie_cmd (d_length d)]) with (d_length d + 0). lia.
  - change (total_steps []) with 0. lia.
Qed.

(** ** C10: the release build. *)
Definition nice (pc : pcmd) : Prop :=
  match cmd pc with
  | Note _ => exists d, duration pc = Some d /\ 0 <= d
  | Rest => exists d, duration pc = Some d /\ 1 <= d
  | _ => True
  end.
Lemma duration_release t tpb up : exists d, get_duration Release t tpb up = Ok d /\ 0 <= d_length d.
Proof.
  unfold get_duration. destruct (arith_release 32 (quantized_length t tpb up * tpb)) as [y ->]. cbn [bind]. eexists. split; [reflexivity|].
  apply split_length_ranges. apply quantized_nonneg.
Qed.
Lemma rest_release cmds e t tpb : Forall nice cmds -> exists c1 e1, insert_rest Release cmds e t tpb = Ok (c1, e1) /\ Forall nice c1.
Proof.
  intros H. unfold insert_rest. destruct (e <? t); [|eauto]. destruct (duration_release (t - e) tpb false) as (d & -> & Hd). cbn [bind].
  destruct (arith_release 32 (e + quantized_ticks d)) as [y ->]. cbn [bind]. eexists. eexists. split; [reflexivity|].
  assert (H1 : Forall nice (cmds ++ repeat (rest_cmd 127) (Z.to_nat (overflow_count d)))).
  { apply Forall_app. split; [exact H|]. apply Forall_forall. intros x Hx. apply repeat_spec in Hx. subst x. exists 127. split; [reflexivity|lia]. }
  destruct (0 <? d_length d) eqn:E; [|exact H1]. apply Forall_app. split; [exact H1|]. constructor; [|constructor].
  exists (d_length d). split; [reflexivity|lia].
Qed.
Lemma slide_release s cmds k tpb : Forall nice cmds -> exists c2, push_slide Release s cmds k tpb = Ok c2 /\ Forall nice c2.
Proof.
  intros H. unfold push_slide. destruct (portamento s); [|eauto]. destruct (last_opt cmds) as [lc|]; [|eauto].
  destruct (duration_release (port_time s) tpb true) as (d & -> & _). cbn [bind]. destruct (arith_release 8 (k + 104)) as [y ->]. cbn [bind].
  destruct (create_pitch_slide lc (d_length d) y) as [sl|] eqn:E; [|eauto]. eexists. split; [reflexivity|]. apply Forall_app. split; [exact H|].
  constructor; [|constructor]. unfold create_pitch_slide in E. unfold nice. destruct (cmd lc), (duration lc); try discriminate; injection E as <-; exact I.
Qed.
Lemma plain_nice cmds c : Forall nice cmds -> (match c with Note _ | Rest => False | _ => True end) -> Forall nice (cmds ++ [plain_cmd c]).
Proof. intros H Hc. apply Forall_app. split; [exact H|]. constructor; [|constructor]. unfold nice. cbn [cmd plain_cmd]. destruct c; tauto. Qed.

Definition sounds_now (s : tstate) : bool := match note_start s with Some _ => true | None => false end.
Lemma step_release tpb tf s ev : midi_valid (fst ev) -> Forall nice (commands s) ->
  if one_note_on (sounds_now s) ev then exists s', track_step Release tpb tf s ev = Ok s' /\ Forall nice (commands s') /\ sounds_now s' = now_on (sounds_now s) ev
  else track_step Release tpb tf s ev = Err EMoreThanOneVoice.
Proof.
  intros Hv Hn. destruct ev as [m t]. cbn [fst] in Hv.
  destruct m as [d ev data|d ev|d ev data|]; cbn [one_note_on now_on track_step];
    try (exists s; split; [reflexivity|]; split; [exact Hn|reflexivity]).
  - destruct ev as [|]; cbn [on_meta midi_valid] in *; [|exists s; auto].
    destruct data as [|x [|y [|z r]]]; cbn [length] in Hv; try lia. unfold usec_of_data. cbn [nth_error or_panic bind].
    eexists. split; [reflexivity|]. split; [|reflexivity]. cbn [set_commands commands]. apply plain_nice; [exact Hn|exact I].
  - destruct ev; cbn [midi_valid] in Hv; try (exists s; split; [reflexivity|]; split; [exact Hn|reflexivity]).
    + unfold on_note_off. destruct (note_start s) as [start|] eqn:Es.
      2:{ exists s. split; [reflexivity|]. split; [exact Hn|]. unfold sounds_now. rewrite Es. reflexivity. }
      destruct (arith_release 32 (t - start)) as [y ->]. cbn [bind]. destruct (duration_release y tpb true) as (dr & -> & Hd). cbn [bind].
      assert (Hc : exists c, (c = Tie \/ exists p, c = Note p) /\ (if match last_opt (commands s) with Some c => is_slide c | None => false end then Ok Tie
                else let* p := arith Release 8 (note + 104) in Ok (Note p)) = Ok c).
      { destruct (match last_opt (commands s) with Some c => is_slide c | None => false end); [exists Tie; auto|].
        destruct (arith_release 8 (note + 104)) as [p ->]. cbn [bind]. exists (Note p). eauto. }
      destruct Hc as (c & Hc & ->). cbn [bind].
      destruct (arith_release 32 (start + quantized_ticks dr)) as [e ->]. cbn [bind]. eexists. split; [reflexivity|]. split; [|reflexivity].
      cbn [commands]. apply Forall_app. split; [exact Hn|].
      assert (Hties : Forall nice (overflow_ties (overflow_count dr) (d_length dr))).
      { unfold overflow_ties. destruct (0 <? overflow_count dr); [|constructor]. apply Forall_app. split.
        - apply Forall_forall. intros x Hx. apply repeat_spec in Hx. subst x. exact I.
        - constructor; [exact I|constructor]. }
      constructor; [|exact Hties]. unfold nice. cbn [cmd duration]. destruct Hc as [->|[p ->]]; [exact I|].
      destruct (0 <? overflow_count dr); (eexists; split; [reflexivity|lia]).
    + unfold on_note_on. destruct (rest_release (commands s) (last_note_end s) t tpb Hn) as (c1 & e1 & -> & H1). cbn [bind].
      destruct (slide_release s c1 note tpb H1) as (c2 & -> & H2). cbn [bind]. unfold sounds_now at 1. destruct (note_start s); cbn [negb]; [reflexivity|].
      eexists. split; [reflexivity|]. split; [exact H2|reflexivity].
    + unfold on_control_change. destruct (_ =? 5); [eexists; split; [reflexivity|]; split; [exact Hn|reflexivity]|].
      destruct (_ =? 7).
      { destruct (arith_release 8 (data * 2)) as [y ->]. cbn [bind]. eexists. split; [reflexivity|]. split; [|reflexivity].
        cbn [set_commands commands]. apply plain_nice; [exact Hn|exact I]. }
      destruct (_ =? 37); [eexists; split; [reflexivity|]; split; [exact Hn|reflexivity]|].
      destruct (_ =? 65); (eexists; split; [reflexivity|]; split; [exact Hn|reflexivity]).
    + unfold on_program_change. destruct (rest_release (commands s) (last_note_end s) t tpb Hn) as (c1 & e1 & -> & H1). cbn [bind].
      assert (Hi : exists i, (if ch =? 9 then Ok program else or_panic PIndex (nth_error INSTRUMENT_MAP (Z.to_nat program))) = Ok i).
      { destruct (ch =? 9); [eauto|]. destruct (nth_error INSTRUMENT_MAP (Z.to_nat program)) eqn:E; [cbn; eauto|].
        apply nth_error_None in E. change (length INSTRUMENT_MAP) with 128%nat in E. lia. }
      destruct Hi as [i ->]. cbn [bind]. eexists. split; [reflexivity|]. split; [|reflexivity]. cbn [commands]. apply plain_nice; [exact H1|exact I].
Qed.
Lemma loop_release tpb tf events : forall s, Forall (fun e => midi_valid (fst e)) events -> Forall nice (commands s) ->
  if single_notes (sounds_now s) events then exists s', ofold (track_step Release tpb tf) events s = Ok s' /\ Forall nice (commands s')
  else ofold (track_step Release tpb tf) events s = Err EMoreThanOneVoice.
Proof.
  induction events as [|ev r IH]; intros s Hv Hn; cbn [single_notes ofold]; [eauto|]. inversion Hv as [|? ? H1 H2]; subst.
  pose proof (step_release tpb tf s ev H1 Hn) as Hs. destruct (one_note_on (sounds_now s) ev); cbn [andb]; [|rewrite Hs; reflexivity].
  destruct Hs as (s' & -> & Hn' & <-). cbn [bind]. apply IH; assumption.
Qed.
Lemma sustain_nice n : forall l, (length l <= n)%nat -> Forall nice l -> exists r, sustain_pass l = Ok r.
Proof.
  induction n as [|n IH]; intros [|c l] HL Hn; try (cbn [length] in HL; lia); try (cbn; eauto).
  destruct l as [|next l]; [cbn; eauto|]. inversion Hn as [|? ? H1 H2]; subst. inversion H2 as [|? ? H3 H4]; subst. cbn [length] in HL.
  destruct (IH l ltac:(lia) H4) as [r1 E1]. destruct (IH (next :: l) ltac:(cbn [length]; lia) H2) as [r2 E2].
  change (sustain_pass (c :: next :: l)) with (let* r := set_sustain c next in let '(skip, c') := r in
    let* rest := if skip then sustain_pass l else sustain_pass (next :: l) in Ok (c' :: rest)).
  assert (Hs : exists f c', set_sustain c next = Ok (f, c')).
  { unfold set_sustain, nice in *. destruct (cmd c); eauto. destruct (cmd next); eauto. destruct H1 as (x & -> & Hx), H3 as (y & -> & Hy).
    cbn [or_panic bind]. destruct (x + y =? 0) eqn:E; [lia|]. destruct (_ || _); eauto. }
  destruct Hs as (f & c' & ->). cbn [bind]. destruct f; [rewrite E1|rewrite E2]; cbn [bind]; eauto.
Qed.
Lemma release_exact tpb tf events max_time : Forall (fun e => midi_valid (fst e)) events ->
  if single_notes false events then exists tr, track_new Release events tpb max_time tf = Ok tr
  else track_new Release events tpb max_time tf = Err EMoreThanOneVoice.
Proof.
  intros Hv. unfold track_new. pose proof (loop_release tpb tf events tstate0 Hv (Forall_nil _)) as H.
  change (sounds_now tstate0) with false in H. destruct (single_notes false events); [|rewrite H; reflexivity].
  destruct H as (s & -> & Hn). cbn [bind]. destruct (commands s) as [|c0 cs]; [eauto|]. set (l := c0 :: cs) in *.
  assert (Hr : exists c1 e1, (if last_note_end s <? max_time then insert_rest Release l (last_note_end s) max_time tpb
                else Ok (l, last_note_end s)) = Ok (c1, e1) /\ Forall nice c1).
  { destruct (_ <? _); [apply rest_release; exact Hn|eauto]. }
  destruct Hr as (c1 & e1 & -> & H1). cbn [bind fst]. eapply sustain_nice; eauto.
Qed.

(** ** C49: the checked build crashes exactly on unbalanced channels. *)
Lemma arith_debug bits x : ~ (0 <= x < 2 ^ bits) -> arith Debug bits x = Panic POverflow.
Proof. intros H. unfold arith. destruct (_ && _) eqn:E; [lia|reflexivity]. Qed.
Definition balanced_from (p l : list tmsg) : Prop := forall q r, l = q ++ r -> 0 <= surplus (p ++ q) < 2 ^ 64.
Lemma balanced_split p m l : balanced_from p (m :: l) <-> 0 <= surplus p < 2 ^ 64 /\ balanced_from (p ++ [m]) l.
Proof.
  unfold balanced_from. split.
  - intros H. split; [specialize (H [] (m :: l) eq_refl); rewrite app_nil_r in H; exact H|].
    intros q r ->. specialize (H (m :: q) r eq_refl). rewrite <- app_assoc. exact H.
  - intros [H1 H2] q r E. destruct q as [|x q]; [rewrite app_nil_r; exact H1|]. injection E as <- E. specialize (H2 q r E). rewrite <- app_assoc in H2. exact H2.
Qed.
Lemma scan_exact i ch : forall p s, is_active s = surplus p -> 0 <= surplus p < 2 ^ 64 ->
  (exists s', ofold (interval_step Debug i) ch s = Ok s') /\ balanced_from p ch \/
  ofold (interval_step Debug i) ch s = Panic POverflow /\ ~ balanced_from p ch.
Proof.
  induction ch as [|[m t] ch IH]; intros p s Ha Hp; cbn [ofold].
  - left. split; [eauto|]. intros q r E. symmetry in E. apply app_eq_nil in E. destruct E as [-> ->]. rewrite app_nil_r. exact Hp.
  - assert (Hsur : surplus (p ++ [(m, t)]) = is_active s + weight m).
    { rewrite surplus_app. cbn [surplus]. lia. }
    rewrite balanced_split.
    assert (Hgo : 0 <= surplus (p ++ [(m, t)]) < 2 ^ 64 -> forall s1, is_active s1 = surplus (p ++ [(m, t)]) ->
      (exists s', ofold (interval_step Debug i) ch s1 = Ok s') /\ (0 <= surplus p < 2 ^ 64 /\ balanced_from (p ++ [(m, t)]) ch) \/
      ofold (interval_step Debug i) ch s1 = Panic POverflow /\ ~ (0 <= surplus p < 2 ^ 64 /\ balanced_from (p ++ [(m, t)]) ch)).
    { intros Hr s1 E1. destruct (IH _ s1 E1 Hr) as [((s' & E) & Hb)|(E & Hb)]; [left; eauto|right; split; [exact E|tauto]]. }
    rewrite interval_step_eq. destruct m as [d e x|d e|d e x|]; try (cbn [bind]; match type of Hsur with context [weight ?w] => change (weight w) with 0 in Hsur end; apply Hgo; lia).
    cbn zeta. destruct (is_note (MidiEvent d e)) eqn:En.
    + assert (Hd : 0 <= is_active s + weight (MidiEvent d e) < 2 ^ 64 \/ ~ (0 <= is_active s + weight (MidiEvent d e) < 2 ^ 64)) by lia.
      destruct Hd as [Hr|Hr].
      * rewrite ProofLib.arith_exact by exact Hr. cbn [bind]. apply Hgo; [rewrite Hsur; exact Hr|]. cbn [is_active]. rewrite Hsur. reflexivity.
      * right. rewrite arith_debug by exact Hr. cbn [bind]. split; [reflexivity|]. intros [_ Hb].
        specialize (Hb [] ch eq_refl). rewrite app_nil_r in Hb. apply Hr. rewrite <- Hsur. exact Hb.
    + cbn [bind]. apply weight_zero in En. rewrite En, Z.add_0_r in Hsur. apply Hgo; [lia|]. cbn [is_active]. symmetry. exact Hsur.
Qed.
Lemma balanced_from_nil l : balanced_from [] l <-> balanced l.
Proof. unfold balanced_from, balanced. split; intros H p q E; apply (H p q E). Qed.
Lemma intervals_exact chs : forall i mx,
  (exists r, all_intervals Debug chs i mx = Ok r) /\ Forall balanced chs \/
  all_intervals Debug chs i mx = Panic POverflow /\ Exists (fun l => ~ balanced l) chs.
Proof.
  induction chs as [|ch chs IH]; intros i mx; cbn [all_intervals]; [left; eauto|].
  destruct (scan_exact i ch [] (mk_istate [] 0 0 mx) eq_refl ltac:(cbn; lia)) as [((s & E) & Hb)|(E & Hb)]; rewrite E; cbn [bind].
  - rewrite balanced_from_nil in Hb. destruct (IH (S i) (is_max s)) as [((r & Er) & HF)|(Er & HF)]; rewrite Er; cbn [bind].
    + left. split; [eauto|constructor; assumption].
    + right. split; [reflexivity|]. apply Exists_cons_tl. exact HF.
  - right. split; [reflexivity|]. apply Exists_cons_hd. rewrite <- balanced_from_nil. exact Hb.
Qed.
Lemma balanced_nil : balanced [].
Proof. intros p q E. symmetry in E. apply app_eq_nil in E. destruct E as [-> _]. cbn [surplus]. lia. Qed.
Lemma read_exact cbs order : Forall callback_typed cbs -> (forall k, permutes (order k)) -> format1 false cbs = true ->
  file_ok (tracks_of cbs) ->
  (forall c l, stable_sort_of (file_order (tracks_of cbs) c) l -> balanced l) /\
    ((exists h, midi_read Debug cbs true order = Ok h) \/ midi_read Debug cbs true order = Err ECouldntFit) \/
  (exists c l, stable_sort_of (file_order (tracks_of cbs) c) l /\ ~ balanced l) /\ midi_read Debug cbs true order = Panic POverflow.
Proof.
  intros HF Ho H1 Hfile. destruct (merge_ok Debug _ Hfile) as (chs & E & HL & Hs).
  destruct (intervals_exact chs 0%nat 0) as [(_ & Hb)|(Ei & Hb)].
  - left. assert (Hall : forall c l, stable_sort_of (file_order (tracks_of cbs) c) l -> balanced l).
    { intros c l Hl. rewrite (stable_sort_unique _ _ _ Hl (Hs c)). destruct (nth_in_or_default c chs []) as [Hin|Hd]; [|rewrite Hd; apply balanced_nil].
      rewrite Forall_forall in Hb. apply Hb. exact Hin. }
    split; [exact Hall|]. apply read_total_debug; assumption.
  - right. split.
    + apply Exists_exists in Hb. destruct Hb as (l & Hin & Hb). apply In_nth with (d := []) in Hin. destruct Hin as (c & _ & <-). exists c. eauto.
    + unfold midi_read. destruct (callbacks_ok cbs 0 H1) as [tpb Ec]. rewrite Ec. cbn [bind r_tracks r_tpb]. rewrite E. cbn [bind]. rewrite Ei. reflexivity.
Qed.
