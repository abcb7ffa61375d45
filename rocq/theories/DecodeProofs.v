(** DecodeProofs.v: which converted tracks the driver can read, for any events and any times (C14). *)
From Coq Require Import ZArith List Bool Lia ZifyBool ZifyNat.
From Verif Require Import Base ProofLib F32 Messages Command Track SpecTime SpecNspc SpecSong SpecVoice CodecProofs TrackProofs SlideProofs SongBytes HeadProofs.
Import ListNotations.
Open Scope Z_scope.
Open Scope list_scope.

(** What every command of a converted track looks like. *)
Definition shaped (pc : pcmd) : Prop :=
  match cmd pc with
  | Note _ => (exists d, duration pc = Some d) /\ (exists v, velocity pc = Some v /\ 0 <= v <= 15) /\ in_range 0 7 (sustain pc)
  | Tie => exists d, duration pc = Some d /\
      ((0 < d /\ velocity pc = None /\ sustain pc = None) \/ ((exists v, velocity pc = Some v /\ 0 <= v <= 15) /\ sustain pc = Some 7))
  | Rest => (exists d, duration pc = Some d /\ 0 < d) /\ velocity pc = None /\ sustain pc = None
  | SetInstrument _ | Tempo _ | ChannelVolume _ | PitchSlide _ _ _ => duration pc = None /\ velocity pc = None /\ sustain pc = None
  | _ => False
  end.
Lemma shaped_rest d : 0 < d -> shaped (rest_cmd d).
Proof. intros H. split; [exists d; auto|split; reflexivity]. Qed.
Lemma shaped_tie d : 0 < d -> shaped (tie_cmd d).
Proof. intros H. exists d. split; [reflexivity|]. left. repeat split; [exact H|reflexivity..]. Qed.
Lemma split_positive q t : 0 < overflow_count (split_length q t) -> 0 < d_length (split_length q t).
Proof.
  unfold split_length. destruct (0x7f <? q) eqn:E; [|cbn; lia]. cbv zeta. destruct (q mod 127 =? 0) eqn:E1; cbn [d_length]; [lia|].
  intros _. unfold as_u. rewrite Z.mod_small; pose proof (Z.mod_pos_bound q 127); lia.
Qed.
Lemma shaped_repeat c n : shaped c -> Forall shaped (repeat c n).
Proof. intros H. apply Forall_forall. intros x Hx. apply repeat_spec in Hx. now subst. Qed.
Lemma shaped_insert b cs e t tpb r : Forall shaped cs -> insert_rest b cs e t tpb = Ok r -> Forall shaped (fst r).
Proof.
  intros HF H. unfold insert_rest in H. destruct (e <? t); [|injection H as <-; exact HF]. inv_bind H. inv_bind H. injection H as <-. cbn [fst].
  assert (H1 : Forall shaped (cs ++ repeat (rest_cmd 0x7f) (Z.to_nat (overflow_count a)))) by (apply Forall_app; split; [exact HF|apply shaped_repeat, shaped_rest; lia]).
  destruct (0 <? d_length a) eqn:El; [|exact H1]. apply Forall_app. split; [exact H1|]. constructor; [apply shaped_rest; lia|constructor].
Qed.
Definition st_shaped (s : tstate) : Prop := Forall shaped (commands s) /\ 0 <= note_velocity s < 128.
Lemma shaped_plain cs c : Forall shaped cs -> match c with SetInstrument _ | Tempo _ | ChannelVolume _ | PitchSlide _ _ _ => True | _ => False end -> Forall shaped (cs ++ [plain_cmd c]).
Proof. intros HF Hc. apply Forall_app. split; [exact HF|]. constructor; [|constructor]. unfold shaped, plain_cmd. cbn [cmd duration velocity sustain]. destruct c; try contradiction; auto. Qed.
Lemma step_shaped b tpb tf s ev s' : midi_valid (fst ev) -> st_shaped s -> track_step b tpb tf s ev = Ok s' -> st_shaped s'.
Proof.
  intros Hv [HF Hn] H. destruct ev as [m t]. cbn [fst] in Hv. unfold track_step in H.
  destruct m as [d e data|d e|d e data|]; [| |injection H as <-; split; assumption|injection H as <-; split; assumption].
  - unfold on_meta in H. destruct e; [|injection H as <-; split; assumption]. inv_bind H. injection H as <-. split; [|exact Hn]. apply shaped_plain; [exact HF|exact I].
  - destruct e as [c k v|c k v|c k v|c ctl v|c p|c p|c v|c]; cbn in Hv; try (injection H as <-; split; assumption).
    + unfold on_note_off in H. destruct (note_start s) as [st|]; [|injection H as <-; split; assumption].
      inv_bind H. inv_bind H. inv_bind H. inv_bind H. injection H as <-. split; [|exact Hn]. cbn [commands]. apply Forall_app. split; [exact HF|].
      assert (Hq : 0 <= note_velocity s / 8 <= 15) by (Z.div_mod_to_equations; lia). constructor.
      * destruct (match last_opt (commands s) with Some c0 => is_slide c0 | None => false end).
        -- injection Ha1 as <-. eexists. split; [reflexivity|]. right. split; [eexists; split; [reflexivity|exact Hq]|reflexivity].
        -- inv_bind Ha1. injection Ha1 as <-. split; [eexists; reflexivity|]. split; [eexists; split; [reflexivity|exact Hq]|cbn; lia].
      * unfold overflow_ties. destruct (0 <? overflow_count a0) eqn:Eo; [|constructor].
        assert (Hl : 0 < d_length a0) by (unfold get_duration in Ha0; cbv zeta in Ha0; inv_bind Ha0; injection Ha0 as <-; apply split_positive; lia). apply Forall_app. split; [apply shaped_repeat, shaped_tie; lia|]. constructor; [apply shaped_tie; exact Hl|constructor].
    + unfold on_note_on in H. inv_bind H. destruct a as [c1 e]. inv_bind H. destruct (note_start s); [discriminate|]. injection H as <-.
      apply shaped_insert in Ha; [|exact HF]. cbn [fst] in Ha. split; [|cbn; lia]. cbn [commands]. apply push_slide_appends in Ha0; [|lia].
      destruct Ha0 as [->|(p & q & ->)]; [exact Ha|]. apply Forall_app. split; [exact Ha|]. constructor; [split; [|split]; reflexivity|constructor].
    + unfold on_control_change in H. destruct (ctl =? 5); [injection H as <-; split; assumption|]. destruct (ctl =? 7).
      { inv_bind H. injection H as <-. split; [|exact Hn]. apply shaped_plain; [exact HF|exact I]. }
      destruct (ctl =? 37); [injection H as <-; split; assumption|]. destruct (ctl =? 65); injection H as <-; split; assumption.
    + unfold on_program_change in H. inv_bind H. destruct a as [c1 e]. inv_bind H. injection H as <-. apply shaped_insert in Ha; [|exact HF]. cbn [fst] in Ha.
      split; [|exact Hn]. apply shaped_plain; [exact Ha|exact I].
Qed.
Lemma sustain_shaped : forall n l r, (length l <= n)%nat -> Forall shaped l -> sustain_pass l = Ok r -> Forall shaped r.
Proof.
  induction n as [|n IH]; intros l r Hl HF H; destruct l as [|c l]; cbn [length] in Hl; try lia; cbn [sustain_pass] in H.
  - injection H as <-. constructor.
  - injection H as <-. constructor.
  - destruct l as [|x l]; [injection H as <-; exact HF|]. inv_bind H. destruct a as [skip c']. inv_bind H. injection H as <-.
    inversion HF as [|? ? H1 H2]; subst. inversion H2 as [|? ? H3 H4]; subst. constructor.
    + unfold set_sustain in Ha. destruct (cmd c) eqn:Ec; try (injection Ha as _ <-; exact H1).
      destruct (cmd x) eqn:Ex; try (injection Ha as _ <-; exact H1). inv_bind Ha. inv_bind Ha. cbv zeta in Ha.
      destruct (_ =? 0); [discriminate|]. destruct (_ || _); [|injection Ha as _ <-; exact H1]. injection Ha as _ <-.
      unfold shaped in H1. rewrite Ec in H1. destruct H1 as (_ & A2 & _). split; [eexists; reflexivity|]. split; [exact A2|].
      cbn. pose proof (as_u8 (a0 * 8 / (a0 + a1))) as Hu. unfold u8 in Hu. lia.
    + destruct skip; (eapply IH; [|  |exact Ha0]); try assumption; cbn [length] in *; lia.
Qed.
Lemma track_shaped b events tpb mt tf t : Forall (fun x => midi_valid (fst x)) events -> track_new b events tpb mt tf = Ok t -> Forall shaped t.
Proof.
  intros Hv H. unfold track_new in H. inv_bind H.
  assert (HS : st_shaped a).
  { eapply (ofold_inv st_shaped); [| |exact Ha]; [|split; [constructor|cbn; lia]]. intros s x s' Hx Hs E. rewrite Forall_forall in Hv. eapply step_shaped; [apply Hv; exact Hx|exact Hs|exact E]. }
  destruct HS as [HF _]. destruct (commands a) eqn:Ec; [injection H as <-; constructor|]. rewrite <- Ec in *. inv_bind H.
  eapply sustain_shaped; [apply le_n| |exact H]. destruct (_ <? _); [eapply shaped_insert; [exact HF|exact Ha0]|injection Ha0 as <-; exact HF].
Qed.

Definition readable_pc (pc : pcmd) : Prop := in_range 1 127 (duration pc) /\ forall p, cmd pc = Note p -> 0x80 <= p <= 0xc7.
Lemma command_bytes pc : inb pc -> bytes_ok (cmd pc).
Proof.
  intros [(_ & _ & _ & H) Hc]. unfold bytes_ok. destruct (cmd pc); cbn in H |- *; try exact I; try exact H; try (repeat constructor; (exact H || apply H)).
  exfalso. eapply Hc. reflexivity.
Qed.
Lemma shaped_wf l : Forall shaped l -> Forall inb l -> forall running, well_formed_from running l <-> Forall readable_pc l.
Proof.
  induction l as [|c l IH]; intros HS HI running; cbn [well_formed_from]; [split; [constructor|exact (fun _ => I)]|].
  inversion HS as [|? ? S1 S2]; subst. inversion HI as [|? ? I1 I2]; subst. cbv zeta. rewrite (IH S2 I2). clear IH. pose proof (command_bytes c I1) as HB.
  assert (K : (pcmd_ok c /\ (needs_dur c -> (match duration c with Some d => 0 <? d | None => running end) = true)) <-> readable_pc c).
  { unfold pcmd_ok, driver_ok, needs_dur, readable_pc. unfold shaped in S1.
    destruct (cmd c) eqn:Ec; try contradiction; cbn [is_note].
    - destruct S1 as ((d & Hd) & (v & Hv & Hv1) & Hq). rewrite Hd, Hv. cbn [in_range]. split.
      + intros ((_ & Hp & Hr & _) & Hn). specialize (Hn (or_introl eq_refl)). split; [lia|]. intros q [= <-]. exact Hp.
      + intros [Hr Hp]. split; [|intros _; lia]. split; [exact HB|]. split; [apply Hp; reflexivity|]. split; [lia|]. split; [lia|exact Hq].
    - destruct S1 as ((d & Hd & Hd0) & Hv & Hq). rewrite Hd, Hv, Hq. cbn [in_range]. split.
      + intros ((_ & _ & Hr & _) & Hn). split; [lia|]. intros q Hx. discriminate.
      + intros [Hr _]. split; [|intros _; lia]. split; [exact HB|]. split; [exact I|]. split; [lia|]. split; exact I.
    - destruct S1 as (d & Hd & [(Hd0 & Hv & Hq)|((v & Hv & Hv0) & Hq)]); rewrite Hd, Hv, Hq; cbn [in_range]; split.
      + intros ((_ & _ & Hr & _) & _). split; [lia|]. intros q Hx. discriminate.
      + intros [Hr _]. split; [|intros _; lia]. split; [exact HB|]. split; [exact I|]. split; [lia|]. split; exact I.
      + intros ((_ & _ & Hr & _) & Hn). assert (Hn' : (0 <? d) = true) by (apply Hn; right; left; discriminate). split; [lia|]. intros q Hx. discriminate.
      + intros [Hr _]. split; [|intros _; lia]. split; [exact HB|]. split; [exact I|]. split; [lia|]. split; [exact Hv0|lia].
    - destruct S1 as (Hd & Hv & Hq). rewrite Hd, Hv, Hq. cbn [in_range positive]. split; [intros _; split; [exact I|discriminate]|]. intros _. split; [auto|]. intros [X|[X|X]]; congruence.
    - destruct S1 as (Hd & Hv & Hq). rewrite Hd, Hv, Hq. cbn [in_range positive]. split; [intros _; split; [exact I|discriminate]|]. intros _. split; [auto|]. intros [X|[X|X]]; congruence.
    - destruct S1 as (Hd & Hv & Hq). rewrite Hd, Hv, Hq. cbn [in_range positive]. split; [intros _; split; [exact I|discriminate]|]. intros _. split; [auto|]. intros [X|[X|X]]; congruence.
    - destruct S1 as (Hd & Hv & Hq). rewrite Hd, Hv, Hq. cbn [in_range positive]. split; [intros _; split; [exact I|discriminate]|]. intros _. split; [auto|]. intros [X|[X|X]]; congruence. }
  split.
  - intros (A & B & C). constructor; [apply K; split; assumption|exact C].
  - intros HF. inversion HF as [|? ? F1 F2]; subst. apply K in F1. destruct F1 as [F1 F3]. auto.
Qed.
Lemma decodable_exact b tpb tf events max_time tr : Forall (fun ev => midi_valid (fst ev)) events -> track_new b events tpb max_time tf = Ok tr ->
  (well_formed tr <-> Forall (fun pc => in_range 1 127 (duration pc) /\ forall p, cmd pc = Note p -> 0x80 <= p <= 0xc7) tr).
Proof. intros Hv H. apply shaped_wf; [eapply track_shaped; eassumption|eapply track_in; eassumption]. Qed.
Lemma decodable_keys b tpb tf events max_time tr : Forall (fun ev => midi_valid (fst ev)) events -> track_new b events tpb max_time tf = Ok tr ->
  (forall n, In n (notes_of events) -> 24 <= n_key n <= 95) -> (well_formed tr <-> Forall (fun pc => in_range 1 127 (duration pc)) tr).
Proof.
  intros Hv H Hk. rewrite (decodable_exact b tpb tf events max_time tr Hv H). split.
  - intros HF. eapply Forall_impl; [|exact HF]. intros pc [A _]. exact A.
  - intros HF. apply Forall_forall. intros pc Hin. rewrite Forall_forall in HF. split; [apply HF; exact Hin|]. intros p Hp.
    destruct (only_heads_any b tpb tf events max_time tr H pc p Hin Hp) as (v & Ev). destruct (head_of_velocity tr pc v Hin Ev) as (h & Hh & Ec & _).
    pose proof (notes_any b tpb tf events max_time tr Hv H) as HN. clear - Hh Ec HN Hk Hp.
    induction HN as [|h0 n0 hs ns (_ & A & _) HN IH]; [destruct Hh|]. destruct Hh as [->|Hh].
    + rewrite Ec, Hp in A. destruct (h_tied h); [discriminate|]. injection A as ->. specialize (Hk n0 (or_introl eq_refl)). lia.
    + apply IH; [intros n Hn; apply Hk; right; exact Hn|exact Hh].
Qed.
Lemma decodable_plays b tpb tf events max_time tr rest : Forall (fun ev => midi_valid (fst ev)) events -> track_new b events tpb max_time tf = Ok tr ->
  Forall (fun pc => in_range 1 127 (duration pc) /\ forall p, cmd pc = Note p -> 0x80 <= p <= 0xc7) tr ->
  play_stream (fst (track_write tr [] []) ++ 0 :: rest) = Some (prescribed tr None None, rest).
Proof. intros Hv H HF. apply track_write_plays. apply (decodable_exact b tpb tf events max_time tr Hv H). exact HF. Qed.

(** 96 ticks per beat, a step of 4 ticks: the second note lasts half a step and starts half a step off the grid. *)
Definition zero_voice : list tmsg :=
  [(MidiEvent 0 (NoteOn 0 60 100), 0); (MidiEvent 0 (NoteOff 0 60 0), 190); (MidiEvent 0 (NoteOn 0 62 100), 190); (MidiEvent 0 (NoteOff 0 62 0), 192);
   (MidiEvent 0 (NoteOn 0 64 100), 192); (MidiEvent 0 (NoteOff 0 64 0), 288)].
Lemma zero_breaks_stream : exists events tr, events = zero_voice /\ track_new Debug events 96 288 f32_0_3 = Ok tr /\
  map (fun pc => (duration pc, cmd pc)) tr = [(Some 48, Note 164); (Some 0, Note 166); (Some 24, Note 168)] /\
  option_map (fun r => map (fun e => (ev_token e, ev_dur e)) (fst r)) (play_stream (fst (track_write tr [] []) ++ [0])) =
    Some [(TNote 164, Some 48); (TNote 166, Some 48); (TNote 168, Some 24)].
Proof. eexists. eexists. split; [reflexivity|]. split; [vm_compute; reflexivity|]. split; [reflexivity|vm_compute; reflexivity]. Qed.
