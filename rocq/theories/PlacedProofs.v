(** PlacedProofs.v: where a converted voice puts its notes, for any lengths and any program changes (C08, C09, C10). *)
From Coq Require Import ZArith List Bool Lia ZifyBool ZifyNat.
From Verif Require Import Base F32 ProofLib Messages Command Track SpecTime SpecVoice SpecExact SpecPlaced DurationProofs SplitProofs TrackProofs ExactProofs ClockProofs DecodeProofs.
Import ListNotations.
Open Scope Z_scope.
Open Scope list_scope.

(** ** What a duration shows *)
Lemma shown_split q qt : 0 <= q -> overflow_count (split_length q qt) * 127 + d_length (split_length q qt) = shown q /\
  0 <= d_length (split_length q qt) <= 127 /\ 0 <= overflow_count (split_length q qt).
Proof.
  intros Hq. unfold split_length, shown. destruct (Z.ltb_spec 127 q) as [H|H].
  - replace (q <=? 0) with false by lia. cbv zeta. destruct (Z.eqb_spec (q mod 127) 0) as [E|E]; cbn [overflow_count d_length]; unfold as_u; change (2 ^ 8) with 256.
    + split; [|split; [lia|apply Z.mod_pos_bound; lia]]. Z.div_mod_to_equations. lia.
    + rewrite (Z.mod_small (q mod 127)) by (pose proof (Z.mod_pos_bound q 127); lia).
      split; [|split; [pose proof (Z.mod_pos_bound q 127); lia|apply Z.mod_pos_bound; lia]]. Z.div_mod_to_equations. lia.
  - cbn [overflow_count d_length]. unfold as_u. rewrite Z.mod_small by lia. destruct (Z.leb_spec q 0) as [H0|H0]; [lia|]. rewrite Z.mod_small by lia. lia.
Qed.
Lemma shown_small q : 0 <= q <= 32512 -> shown q = q.
Proof. intros H. unfold shown. destruct (Z.leb_spec q 0); [lia|]. rewrite Z.mod_small by lia. lia. Qed.

(** ** Positions in a command list *)
Definition onsets (l : list pcmd) : list Z := map h_onset (heads l).
Definition brief (pc : pcmd) : Prop :=
  match cmd pc with
  | Note _ => exists d, duration pc = Some d /\ 0 <= d <= 127
  | Rest => exists d, duration pc = Some d /\ 1 <= d <= 127 /\ velocity pc = None
  | _ => True
  end.
Definition mute (pc : pcmd) : Prop := velocity pc = None.
Lemma total_app a b : total_steps (a ++ b) = total_steps a + total_steps b.
Proof. unfold total_steps. rewrite map_app, zsum_app. reflexivity. Qed.
Lemma mute_walk l : Forall mute l -> forall w, w_heads (fold_left walk_step l w) = w_heads w.
Proof. induction 1 as [|c l H _ IH]; intros w; [reflexivity|]. cbn [fold_left]. rewrite IH. unfold walk_step. cbn [w_heads]. rewrite H. reflexivity. Qed.
Lemma onsets_mute a l : Forall mute l -> onsets (a ++ l) = onsets a.
Proof. intros H. unfold onsets, heads. rewrite fold_left_app, mute_walk by exact H. reflexivity. Qed.
Lemma onsets_head a c v l : velocity c = Some v -> Forall mute l -> onsets (a ++ c :: l) = onsets a ++ [total_steps a].
Proof.
  intros Hv H. unfold onsets, heads. rewrite fold_left_app. cbn [fold_left]. rewrite mute_walk by exact H. unfold walk_step at 1. cbn [w_heads]. rewrite Hv, map_app. cbn [map h_onset].
  f_equal. f_equal. apply total_steps_walk.
Qed.
Lemma one_total c : total_steps [c] = steps c.
Proof. unfold total_steps, zsum. cbn [map fold_right]. apply Z.add_0_r. Qed.
Lemma repeat_total c n : total_steps (repeat c n) = Z.of_nat n * steps c.
Proof. induction n as [|n IH]; [reflexivity|]. cbn [repeat]. change (c :: repeat c n) with ([c] ++ repeat c n). rewrite total_app, IH, one_total. lia. Qed.
Lemma Forall_repeat {A} (P : A -> Prop) c n : P c -> Forall P (repeat c n).
Proof. intros H. apply Forall_forall. intros x Hx. apply repeat_spec in Hx. now subst. Qed.

Lemma rest_placed b cmds c t tpb : 1 <= tpb <= 65535 -> 0 <= k_ticks c -> t < 2 ^ 31 -> 24 * (t - k_ticks c) < 2 ^ 23 ->
  exists l, insert_rest b cmds (k_ticks c) t tpb = Ok (cmds ++ l, k_ticks (wait tpb c t)) /\ Forall mute l /\ Forall brief l /\
    k_steps (wait tpb c t) = k_steps c + total_steps l /\ k_start (wait tpb c t) = k_start c /\
    k_ticks c <= k_ticks (wait tpb c t) <= Z.max (k_ticks c) t /\ 24 * t <= 24 * k_ticks (wait tpb c t) + tpb + 24.
Proof.
  intros Ht Hc Hb Hg. unfold insert_rest, wait. destruct (Z.ltb_spec (k_ticks c) t) as [Hlt|Hge].
  2:{ exists []. rewrite app_nil_r. split; [reflexivity|]. split; [constructor|]. split; [constructor|]. split; [unfold total_steps; cbn; lia|]. split; [reflexivity|]. lia. }
  destruct (duration_exact b (t - k_ticks c) tpb false Ht ltac:(lia) ltac:(lia)) as (-> & Hq & Hqt & _). cbn [bind]. rewrite split_ticks.
  set (q := 24 * (t - k_ticks c) / tpb) in *. destruct (shown_split q (q * tpb / 24) Hq) as (Hs & Hd & Ho). set (d := split_length q (q * tpb / 24)) in *.
  rewrite arith_ok by lia. cbn [bind k_ticks k_steps k_start].
  exists (repeat (rest_cmd 127) (Z.to_nat (overflow_count d)) ++ (if 0 <? d_length d then [rest_cmd (d_length d)] else [])).
  split; [f_equal; f_equal; destruct (0 <? d_length d); rewrite <- ?app_assoc, ?app_nil_r; reflexivity|].
  split; [apply Forall_app; split; [apply Forall_repeat; reflexivity|destruct (0 <? d_length d); [constructor; [reflexivity|]|]; constructor]|].
  split.
  { apply Forall_app. split; [apply Forall_repeat; exists 127; split; [reflexivity|split; [lia|reflexivity]]|].
    destruct (0 <? d_length d) eqn:E; [|constructor]. constructor; [|constructor]. exists (d_length d). split; [reflexivity|]. split; [lia|reflexivity]. }
  split.
  { rewrite total_app, repeat_total. unfold rest_cmd at 1. unfold steps at 1. cbn [duration].
    destruct (0 <? d_length d) eqn:E; [rewrite one_total; unfold steps; cbn [rest_cmd duration]; lia|unfold total_steps; cbn; lia]. }
  split; [reflexivity|]. split; [lia|]. unfold q in *. Z.div_mod_to_equations. lia.
Qed.
Lemma slide_placed b s cmds k tpb : 1 <= tpb <= 65535 -> 0 <= port_time s < 65536 -> 0 <= k < 128 ->
  exists l, push_slide b s cmds k tpb = Ok (cmds ++ l) /\ Forall mute l /\ Forall brief l /\ total_steps l = 0.
Proof.
  intros Ht Hp Hk. assert (Hnil : exists l, Ok cmds = Ok (cmds ++ l) /\ Forall mute l /\ Forall brief l /\ total_steps l = 0).
  { exists []. rewrite app_nil_r. repeat split; constructor. }
  unfold push_slide. destruct (portamento s); [|exact Hnil]. destruct (last_opt cmds) as [lc|]; [|exact Hnil].
  destruct (duration_exact b (port_time s) tpb true Ht ltac:(lia) ltac:(lia)) as (-> & _). cbn [bind]. rewrite arith_ok by lia. cbn [bind].
  destruct (create_pitch_slide lc _ _) as [sl|] eqn:E; [|exact Hnil]. exists [sl]. split; [reflexivity|].
  unfold create_pitch_slide in E. destruct (cmd lc), (duration lc); try discriminate; injection E as <-; (split; [constructor; [reflexivity|constructor]|split; [constructor; [exact I|constructor]|reflexivity]]).
Qed.

(** ** The invariant *)
Definition at_pos (tpb prev : Z) (on : option Z) (c : vclock) (s : tstate) : Prop :=
  note_start s = k_start c /\ last_note_end s = k_ticks c /\ total_steps (commands s) = k_steps c /\
  0 <= k_ticks c < 2 ^ 31 + tpb /\ 24 * prev <= 24 * k_ticks c + tpb + 24 /\ 0 <= port_time s < 65536 /\ Forall brief (commands s) /\
  match on, k_start c with
  | Some o, Some st => 0 <= st < 2 ^ 31 + tpb /\ 24 * o <= 24 * st + tpb + 24
  | None, None => True
  | _, _ => False
  end.
Lemma step_placed b tpb tf prev on c s m t r mt : 1 <= tpb <= 65535 -> 0 <= t < 2 ^ 31 -> midi_valid m -> at_pos tpb prev on c s -> calm tpb prev on ((m, t) :: r) mt ->
  (exists s' c' new prev' on', track_step b tpb tf s (m, t) = Ok s' /\ at_pos tpb prev' on' c' s' /\ calm tpb prev' on' r mt /\
     onsets (commands s') = onsets (commands s) ++ new /\
     placed tpb c ((m, t) :: r) = match placed tpb c' r with Some (l, e) => Some (new ++ l, e) | None => None end) \/
  (placed tpb c ((m, t) :: r) = None /\ (b = Debug -> forall s', track_step b tpb tf s (m, t) <> Ok s')).
Proof.
  intros Htp Ht Hv HC Hcalm. pose proof HC as (Hs & Hl & Hto & Hk & Hpr & Hp & Hb & Hon). cbn [placed].
  assert (Hid : forall o : option (list Z * vclock), o = match o with Some (l, e) => Some ([] ++ l, e) | None => None end) by (intros [[l e]|]; reflexivity).
  assert (Hpush : forall x, (match x with Note _ | Rest => False | _ => True end) -> at_pos tpb prev on c (set_commands s (commands s ++ [plain_cmd x])) /\ onsets (commands s ++ [plain_cmd x]) = onsets (commands s) ++ []).
  { intros x Hx. split; [|rewrite onsets_mute, app_nil_r by (constructor; [reflexivity|constructor]); reflexivity]. split; [exact Hs|]. split; [exact Hl|].
    split; [cbn [set_commands commands]; rewrite total_app, one_total; unfold steps; cbn [plain_cmd duration]; lia|].
    split; [exact Hk|]. split; [exact Hpr|]. split; [exact Hp|]. split; [|exact Hon].
    cbn [set_commands commands]. apply Forall_app. split; [exact Hb|]. constructor; [|constructor]. unfold brief. cbn [plain_cmd cmd]. destruct x; auto; contradiction. }
  assert (Hkeep : forall s', commands s' = commands s -> note_start s' = note_start s -> last_note_end s' = last_note_end s -> 0 <= port_time s' < 65536 -> calm tpb prev on r mt ->
    exists s0 c' new prev' on', Ok s' = Ok s0 /\ at_pos tpb prev' on' c' s0 /\ calm tpb prev' on' r mt /\ onsets (commands s0) = onsets (commands s) ++ new /\
     placed tpb c r = match placed tpb c' r with Some (l, e) => Some (new ++ l, e) | None => None end).
  { intros s' E1 E2 E3 E4 Hr. exists s', c, [], prev, on. split; [reflexivity|]. split; [|split; [exact Hr|split; [rewrite E1, app_nil_r; reflexivity|apply Hid]]].
    unfold at_pos. rewrite E1, E2, E3. auto 10. }
  destruct m as [d ev data|d ev|d ev data|]; cbn [calm] in Hcalm; cbn [track_step]; try (left; apply Hkeep; auto).
  - left. destruct ev as [|]; cbn [on_meta midi_valid] in *; [|apply Hkeep; auto].
    destruct data as [|x [|y [|z l]]]; cbn [length] in Hv; try lia. unfold usec_of_data. cbn [nth_error or_panic bind].
    eexists. exists c, [], prev, on. split; [reflexivity|]. cbn [commands]. match goal with |- context [plain_cmd ?x] => destruct (Hpush x I) as [P1 P2] end.
    split; [exact P1|]. split; [exact Hcalm|]. split; [exact P2|apply Hid].
  - destruct ev as [ch k v|ch k v|ch k v|ch ctl v|ch p|ch p|ch v|ch]; cbn [midi_valid] in Hv; try (left; apply Hkeep; auto; fail).
    + unfold on_note_off. rewrite Hs. destruct (k_start c) as [st|] eqn:Est.
      2:{ destruct on; [contradiction|]. left. apply Hkeep; auto. }
      destruct on as [o|]; [|contradiction]. destruct Hcalm as [Hg Hr]. unfold calm_gap in Hg. destruct Hon as [Hst Ho].
      destruct (Z.ltb_spec t st) as [Hlt|Hge].
      { right. split; [reflexivity|]. intros -> s' H. rewrite ExactProofs.arith_debug in H by lia. discriminate. }
      left. rewrite arith_ok by lia. cbn [bind]. destruct (duration_exact b (t - st) tpb true Htp ltac:(lia) ltac:(lia)) as (-> & Hq & Hqt & _). cbn [bind]. rewrite split_ticks.
      set (q := (24 * (t - st) + tpb - 1) / tpb) in *. destruct (shown_split q (q * tpb / 24) Hq) as (Hsh & Hd & Hoc). set (dr := split_length q (q * tpb / 24)) in *.
      assert (Hcc : exists cc, (cc = Tie \/ exists p, cc = Note p) /\ (if match last_opt (commands s) with Some c => is_slide c | None => false end then Ok Tie
                else let* p := arith b 8 (k + 104) in Ok (Note p)) = Ok cc).
      { destruct (match last_opt (commands s) with Some c => is_slide c | None => false end); [exists Tie; auto|]. rewrite arith_ok by lia. cbn [bind]. eauto. }
      destruct Hcc as (cc & Hcc & ->). cbn [bind]. assert (Htb : tpb / 24 <= tpb) by (Z.div_mod_to_equations; lia). rewrite arith_ok by lia. cbn [bind].
      assert (Hqt2 : q * tpb / 24 <= t - st + tpb - 1) by (unfold q; Z.div_mod_to_equations; nia).
      assert (Hqt3 : t - st <= q * tpb / 24) by (unfold q; Z.div_mod_to_equations; nia).
      assert (Hm : Forall mute (overflow_ties (overflow_count dr) (d_length dr))).
      { unfold overflow_ties. destruct (0 <? overflow_count dr); [|constructor]. apply Forall_app. split; [apply Forall_repeat; reflexivity|constructor; [reflexivity|constructor]]. }
      eexists. exists (mk_vclock (st + q * tpb / 24) (k_steps c + shown q) None), [k_steps c], t, None. split; [reflexivity|]. cbn [commands].
      split; [|split; [exact Hr|split; [rewrite <- Hto; eapply onsets_head; [reflexivity|exact Hm]|destruct (placed _ _ r) as [[l e]|]; reflexivity]]].
      unfold at_pos. cbn [note_start last_note_end port_time commands k_ticks k_steps k_start]. split; [reflexivity|]. split; [reflexivity|]. split.
      { change (mk_pcmd ?a ?b ?c ?d :: ?l) with ([mk_pcmd a b c d] ++ l). rewrite !total_app, one_total, Hto. unfold steps at 1. cbn [duration]. rewrite <- Hsh. unfold overflow_ties.
        destruct (Z.ltb_spec 0 (overflow_count dr)); [|unfold total_steps; cbn; lia].
        rewrite total_app, repeat_total, one_total. unfold steps. cbn [tie_cmd duration]. lia. }
      split; [lia|]. split; [lia|]. split; [exact Hp|]. split; [|exact I]. apply Forall_app. split; [exact Hb|]. constructor.
      * unfold brief. cbn [cmd duration]. destruct Hcc as [->|[p ->]]; [exact I|]. destruct (0 <? overflow_count dr); (eexists; split; [reflexivity|lia]).
      * unfold overflow_ties. destruct (0 <? overflow_count dr); [|constructor]. apply Forall_app. split; [apply Forall_repeat; exact I|constructor; [exact I|constructor]].
    + destruct Hcalm as [Hg Hr]. unfold calm_gap in Hg. unfold on_note_on. rewrite Hl.
      destruct (rest_placed b (commands s) c t tpb Htp ltac:(lia) ltac:(lia) ltac:(lia)) as (l1 & -> & M1 & B1 & S1 & ST1 & T1 & N1). cbn [bind].
      destruct (slide_placed b s (commands s ++ l1) k tpb Htp Hp ltac:(lia)) as (l2 & -> & M2 & B2 & S2). cbn [bind]. rewrite Hs.
      destruct (k_start c) as [st|] eqn:Est; [right; split; [reflexivity|]; intros _ s' H; discriminate|]. left. cbv zeta.
      eexists. exists (mk_vclock (k_ticks (wait tpb c t)) (k_steps (wait tpb c t)) (Some (k_ticks (wait tpb c t)))), [], t, (Some t). split; [reflexivity|]. cbn [commands].
      split; [|split; [exact Hr|split; [rewrite <- app_assoc, onsets_mute, app_nil_r by (apply Forall_app; auto); reflexivity|apply Hid]]].
      unfold at_pos. cbn [note_start last_note_end port_time commands k_ticks k_steps k_start]. split; [reflexivity|]. split; [reflexivity|].
      split; [rewrite !total_app, Hto, S1, S2; lia|]. split; [lia|]. split; [lia|]. split; [exact Hp|]. split; [|lia]. apply Forall_app. split; [apply Forall_app; auto|exact B2].
    + left. unfold on_control_change. destruct (ctl =? 5).
      { apply Hkeep; auto. cbn [port_time]. apply lor_range; [unfold as_u; apply Z.mod_pos_bound; lia|apply land_range; lia]. }
      destruct (ctl =? 7).
      { rewrite arith_ok by lia. cbn [bind]. eexists. exists c, [], prev, on. split; [reflexivity|]. cbn [commands]. match goal with |- context [plain_cmd ?x] => destruct (Hpush x I) as [P1 P2] end.
        split; [exact P1|]. split; [exact Hcalm|]. split; [exact P2|apply Hid]. }
      destruct (ctl =? 37).
      { apply Hkeep; auto. cbn [port_time]. apply lor_range; [apply land_range; lia|lia]. }
      destruct (ctl =? 65); apply Hkeep; auto.
    + left. destruct Hcalm as [Hg Hr]. unfold calm_gap in Hg. unfold on_program_change. rewrite Hl.
      destruct (rest_placed b (commands s) c t tpb Htp ltac:(lia) ltac:(lia) ltac:(lia)) as (l1 & -> & M1 & B1 & S1 & ST1 & T1 & N1). cbn [bind].
      assert (Hi : exists i, (if ch =? 9 then Ok p else or_panic PIndex (nth_error INSTRUMENT_MAP (Z.to_nat p))) = Ok i).
      { destruct (ch =? 9); [eauto|]. destruct (nth_error INSTRUMENT_MAP (Z.to_nat p)) eqn:E; [cbn; eauto|].
        apply nth_error_None in E. change (length INSTRUMENT_MAP) with 128%nat in E. lia. }
      destruct Hi as [i ->]. cbn [bind]. eexists. exists (wait tpb c t), [], t, on. split; [reflexivity|]. cbn [commands].
      split; [|split; [exact Hr|split; [rewrite <- app_assoc, onsets_mute, app_nil_r by (apply Forall_app; split; [exact M1|constructor; [reflexivity|constructor]]); reflexivity|apply Hid]]].
      unfold at_pos. cbn [note_start last_note_end port_time commands]. split; [rewrite ST1; exact Hs|]. split; [reflexivity|].
      split; [rewrite !total_app, one_total, Hto, S1; unfold steps; cbn [plain_cmd duration]; lia|]. split; [lia|]. split; [lia|]. split; [exact Hp|]. split; [|rewrite ST1; exact Hon].
      apply Forall_app. split; [apply Forall_app; auto|]. constructor; [exact I|constructor].
Qed.
Lemma sustain_placed n : forall l, (length l <= n)%nat -> Forall brief l ->
  exists l', sustain_pass l = Ok l' /\ (l' = [] -> l = []) /\ forall w, fold_left walk_step l' w = fold_left walk_step l w.
Proof.
  induction n as [|n IH]; intros l Hl H; [destruct l; [|cbn in Hl; lia]; exists []; auto|].
  destruct l as [|c [|x l]]; [exists []; auto|exists [c]; auto|]. inversion H as [|? ? Hc H']; subst. inversion H' as [|? ? Hx H'']; subst. rewrite sustain_pass_cons. cbn [length] in Hl.
  assert (Hno : set_sustain c x = Ok (false, c) -> exists l', (let* r := set_sustain c x in let '(skip, c') := r in let* rest := if skip then sustain_pass l else sustain_pass (x :: l) in Ok (c' :: rest)) = Ok l' /\
     (l' = [] -> c :: x :: l = []) /\ forall w, fold_left walk_step l' w = fold_left walk_step (c :: x :: l) w).
  { intros ->. cbn [bind]. destruct (IH (x :: l)) as (l' & E & _ & W); [cbn [length]; lia|exact H'|]. rewrite E. cbn [bind]. exists (c :: l'). split; [reflexivity|]. split; [discriminate|].
    intros w. change (fold_left walk_step (c :: l') w) with (fold_left walk_step l' (walk_step w c)). rewrite W. reflexivity. }
  destruct (cmd c) eqn:Ec; try (apply Hno; unfold set_sustain; rewrite Ec; reflexivity).
  destruct (cmd x) eqn:Ex; try (apply Hno; unfold set_sustain; rewrite Ec, Ex; reflexivity).
  unfold brief in Hc, Hx. rewrite Ec in Hc. rewrite Ex in Hx. destruct Hc as (d1 & E1 & R1), Hx as (d2 & E2 & R2 & V2).
  destruct (((d1 * 8) mod (d1 + d2) =? 0) || (d2 * 16 <? d1)) eqn:Ef.
  2:{ apply Hno. unfold set_sustain. rewrite Ec, Ex, E1, E2. cbn [or_panic bind]. cbv zeta. replace (d1 + d2 =? 0) with false by lia. rewrite Ef. reflexivity. }
  unfold set_sustain. rewrite Ec, Ex, E1, E2. cbn [or_panic bind]. cbv zeta. replace (d1 + d2 =? 0) with false by lia. rewrite Ef. cbn [bind].
  destruct (IH l) as (l' & E & _ & W); [lia|exact H''|]. rewrite E. cbn [bind]. eexists. split; [reflexivity|]. split; [discriminate|].
  intros w. cbn [fold_left]. rewrite W. f_equal. unfold as_u. rewrite Z.mod_small by lia.
  unfold walk_step at 1 2 3. cbn [w_now w_slide w_last_slide w_heads velocity cmd]. unfold steps. cbn [duration]. rewrite E1, E2, V2. unfold slide_cmd. cbn [cmd]. rewrite Ec, Ex. f_equal. lia.
Qed.
Lemma loop_placed b tpb tf mt : 1 <= tpb <= 65535 -> forall events, Forall (fun e => midi_valid (fst e) /\ 0 <= snd e < 2 ^ 31) events ->
  forall prev on c s, at_pos tpb prev on c s -> calm tpb prev on events mt ->
  match placed tpb c events with
  | Some (l, e) => exists s' prev' on', ofold (track_step b tpb tf) events s = Ok s' /\ at_pos tpb prev' on' e s' /\ calm_gap tpb prev' mt /\ onsets (commands s') = onsets (commands s) ++ l
  | None => b = Debug -> forall s', ofold (track_step b tpb tf) events s <> Ok s'
  end.
Proof.
  intros Htp events HF. induction HF as [|[m t] r [Hv Ht] _ IH]; intros prev on c s HC Hcalm.
  { cbn [placed ofold]. exists s, prev, on. rewrite app_nil_r. auto. }
  cbn [fst snd] in Hv, Ht. cbn [ofold]. destruct (step_placed b tpb tf prev on c s m t r mt Htp Ht Hv HC Hcalm) as [(s' & c' & new & prev' & on' & E & HC' & Hr & Ho & Ep)|[Ep Hd]].
  - rewrite Ep, E. cbn [bind]. specialize (IH prev' on' c' s' HC' Hr). destruct (placed tpb c' r) as [[l e]|]; [|exact IH].
    destruct IH as (s2 & p2 & o2 & E2 & H2 & H3 & H4). exists s2, p2, o2. rewrite H4, Ho, <- app_assoc. auto.
  - rewrite Ep. intros Hb s' H. destruct (track_step b tpb tf s (m, t)) as [s1| | |] eqn:E; try discriminate. exact (Hd Hb s1 eq_refl).
Qed.
Lemma track_placed b tpb tf events mt : 1 <= tpb <= 65535 -> mt < 2 ^ 31 -> Forall (fun e => midi_valid (fst e) /\ 0 <= snd e < 2 ^ 31) events -> calm tpb 0 None events mt ->
  match placed tpb vclock0 events with
  | Some (l, e) => exists tr, track_new b events tpb mt tf = Ok tr /\ map h_onset (heads tr) = l /\ (tr <> [] -> total_steps tr = k_steps (wait tpb e mt))
  | None => b = Debug -> forall tr, track_new b events tpb mt tf <> Ok tr
  end.
Proof.
  intros Htp Hmt HF Hcalm. assert (H0 : at_pos tpb 0 None vclock0 tstate0).
  { unfold at_pos, vclock0, tstate0. cbn [note_start last_note_end port_time commands k_ticks k_steps k_start]. split; [reflexivity|]. split; [reflexivity|]. split; [reflexivity|].
    split; [lia|]. split; [lia|]. split; [lia|]. split; [constructor|exact I]. }
  pose proof (loop_placed b tpb tf mt Htp events HF 0 None vclock0 tstate0 H0 Hcalm) as H. destruct (placed tpb vclock0 events) as [[l e]|].
  - destruct H as (s & prev & on & E & (Hs & Hl & Hto & Hk & Hpr & _ & Hb & _) & Hg & Ho). unfold track_new. rewrite E. cbn [bind]. unfold calm_gap in Hg.
    assert (Ho' : onsets (commands s) = l) by (rewrite Ho; reflexivity). clear Ho.
    destruct (commands s) as [|c0 cs] eqn:Ec; [exists []; split; [reflexivity|]; split; [exact Ho'|congruence]|]. rewrite <- Ec in *. rewrite Hl.
    destruct (rest_placed b (commands s) e mt tpb Htp ltac:(lia) ltac:(lia) ltac:(lia)) as (l1 & E1 & M1 & B1 & S1 & _ & T1 & N1).
    assert (Hr : (if k_ticks e <? mt then insert_rest b (commands s) (k_ticks e) mt tpb else Ok (commands s, k_ticks e)) = Ok (commands s ++ l1, k_ticks (wait tpb e mt))).
    { destruct (k_ticks e <? mt) eqn:El; [exact E1|]. unfold insert_rest in E1. rewrite El in E1. exact E1. }
    rewrite Hr. cbn [bind fst]. destruct (sustain_placed _ (commands s ++ l1) (le_n _)) as (tr & -> & Hne & W); [apply Forall_app; auto|].
    exists tr. split; [reflexivity|]. split; [rewrite <- Ho'; unfold heads; rewrite W; change (onsets (commands s ++ l1) = onsets (commands s)); apply onsets_mute; exact M1|].
    intros _. rewrite <- total_steps_walk. unfold the_walk. rewrite W. fold (the_walk (commands s ++ l1)). rewrite total_steps_walk, total_app, Hto, S1. reflexivity.
  - intros Hb tr Ht. unfold track_new in Ht. inv_bind Ht. exact (H Hb a Ha).
Qed.

(** ** How far that is from the MIDI times *)
Definition follows (tpb D prev : Z) (c : vclock) : Prop :=
  k_steps c * tpb - D <= 24 * k_ticks c <= k_steps c * tpb /\ 24 * prev - tpb < k_steps c * tpb /\ 24 * prev - tpb - 24 < 24 * k_ticks c < 24 * prev + tpb.
Lemma follows_wait tpb D prev c t : 1 <= tpb -> 0 <= D -> follows tpb D prev c -> orderly_gap tpb prev t -> follows tpb (D + loss tpb) t (wait tpb c t) /\ k_start (wait tpb c t) = k_start c.
Proof.
  intros Htp HD ((H1 & H2) & H3 & H4 & H5) [G1 G2]. pose proof (loss_range tpb) as HL. unfold wait. destruct (Z.ltb_spec (k_ticks c) t) as [Hlt|Hge].
  - split; [|reflexivity]. set (q := 24 * (t - k_ticks c) / tpb). assert (Q1 : 0 <= q) by (apply Z.div_pos; lia).
    assert (Q2 : q * tpb <= 24 * (t - k_ticks c) < q * tpb + tpb) by (unfold q; Z.div_mod_to_equations; lia). assert (Q3 : q <= 32512) by (assert (q * tpb < 32513 * tpb) by lia; apply Z.mul_lt_mono_pos_r in H; lia).
    pose proof (loss_spec tpb q) as Q4. unfold follows. cbn [k_ticks k_steps]. rewrite shown_small by lia. rewrite Z.mul_add_distr_r. lia.
  - split; [|reflexivity]. unfold follows. lia.
Qed.
Lemma orderly_placed tpb mt : 1 <= tpb -> forall events D prev on vel c l e, 0 <= D -> follows tpb D prev c ->
  match on with Some o => k_start c = Some (k_ticks c) /\ o = prev | None => k_start c = None end -> orderly tpb prev on events mt -> placed tpb c events = Some (l, e) ->
  Forall2 (fun x n => Z.abs (x * tpb - 24 * n_on n) < tpb + (D + loss tpb * Z.of_nat (length events))) l (notes_from (match on with Some o => Some (o, vel) | None => None end) events) /\
  Z.abs (k_steps (wait tpb e mt) * tpb - 24 * mt) < tpb + (D + loss tpb * Z.of_nat (S (length events))).
Proof.
  intros Htp. pose proof (loss_range tpb) as HL. induction events as [|[m t] r IH]; intros D prev on vel c l e HD HF Hon Hord Hp.
  { cbn [placed] in Hp. injection Hp as <- <-. cbn [orderly] in Hord. split; [constructor|]. destruct (follows_wait tpb D prev c mt Htp HD HF Hord) as [((A1 & A2) & A3 & A4 & A5) _]. cbn [length]. lia. }
  assert (EL : Z.of_nat (length r) + 1 = Z.of_nat (length ((m, t) :: r))) by (change (length ((m, t) :: r)) with (S (length r)); lia).
  assert (Hlen : forall D' x, x + 1 = Z.of_nat (length ((m, t) :: r)) -> D' <= D + loss tpb -> D' + loss tpb * x <= D + loss tpb * Z.of_nat (length ((m, t) :: r))) by (intros D' x <- ?; nia).
  assert (Hweak : forall D' l0 ns, D' <= D + loss tpb ->
    Forall2 (fun x n => Z.abs (x * tpb - 24 * n_on n) < tpb + (D' + loss tpb * Z.of_nat (length r))) l0 ns ->
    Forall2 (fun x n => Z.abs (x * tpb - 24 * n_on n) < tpb + (D + loss tpb * Z.of_nat (length ((m, t) :: r)))) l0 ns).
  { intros D' l0 ns Hle H. assert (D' + loss tpb * Z.of_nat (length r) <= D + loss tpb * Z.of_nat (length ((m, t) :: r))) by (apply Hlen; [exact EL|exact Hle]).
    clear - H H0. induction H; constructor; [lia|assumption]. }
  assert (Hend : forall D', D' <= D + loss tpb -> Z.abs (k_steps (wait tpb e mt) * tpb - 24 * mt) < tpb + (D' + loss tpb * Z.of_nat (S (length r))) ->
    Z.abs (k_steps (wait tpb e mt) * tpb - 24 * mt) < tpb + (D + loss tpb * Z.of_nat (S (length ((m, t) :: r))))).
  { intros D' Hle H. change (length ((m, t) :: r)) with (S (length r)). rewrite (Nat2Z.inj_succ (S (length r))), Z.mul_succ_r. lia. }
  assert (Hsame : forall D' prev' on' vel' c', 0 <= D' <= D + loss tpb -> follows tpb D' prev' c' ->
    match on' with Some o => k_start c' = Some (k_ticks c') /\ o = prev' | None => k_start c' = None end -> orderly tpb prev' on' r mt -> forall l0, placed tpb c' r = Some (l0, e) ->
    Forall2 (fun x n => Z.abs (x * tpb - 24 * n_on n) < tpb + (D + loss tpb * Z.of_nat (length ((m, t) :: r)))) l0 (notes_from (match on' with Some o => Some (o, vel') | None => None end) r) /\
    Z.abs (k_steps (wait tpb e mt) * tpb - 24 * mt) < tpb + (D + loss tpb * Z.of_nat (S (length ((m, t) :: r))))).
  { intros D' prev' on' vel' c' HD' HF' Hon' Ho' l0 Hp'. destruct (IH D' prev' on' vel' c' l0 e (proj1 HD') HF' Hon' Ho' Hp') as [A B].
    split; [eapply Hweak; [|exact A]; lia|eapply Hend; [|exact B]; lia]. }
  destruct m as [d ev data|d ev|d ev data|]; cbn [orderly placed notes_from] in *; try (eapply Hsame; try eassumption; lia).
  destruct ev as [ch k v|ch k v|ch k v|ch ctl v|ch p|ch p|ch v|ch]; cbn [orderly placed notes_from] in *; try (eapply Hsame; try eassumption; lia).
  - destruct on as [o|].
    + destruct Hon as [Est ->]. rewrite Est in Hp. destruct Hord as [[G1 G2] Hord]. destruct (Z.ltb_spec t (k_ticks c)) as [|Hge]; [discriminate|]. cbv zeta in Hp.
      destruct HF as ((H1 & H2) & H3 & H4 & H5). set (q := (24 * (t - k_ticks c) + tpb - 1) / tpb) in *. destruct (placed tpb _ r) as [[l0 e0]|] eqn:Ep; [|discriminate]. injection Hp as <- <-.
      assert (Q2 : 24 * (t - k_ticks c) <= q * tpb < 24 * (t - k_ticks c) + tpb) by (unfold q; Z.div_mod_to_equations; lia). assert (Q1 : 0 <= q) by nia. assert (Q3 : q <= 32512) by (assert (q * tpb < 32513 * tpb) by lia; apply Z.mul_lt_mono_pos_r in H; lia).
      pose proof (loss_spec tpb q) as Q4. destruct (Hsame (D + loss tpb) t None 0 (mk_vclock (k_ticks c + q * tpb / 24) (k_steps c + shown q) None)) with (l0 := l0) as [A B]; [lia| |reflexivity|exact Hord|exact Ep|].
      { unfold follows. cbn [k_ticks k_steps]. rewrite shown_small by lia. rewrite Z.mul_add_distr_r. lia. }
      split; [|exact B]. constructor; [|exact A]. cbn [n_on]. assert (0 <= loss tpb * Z.of_nat (length ((MidiEvent d (NoteOff ch k v), t) :: r))) by (apply Z.mul_nonneg_nonneg; lia). lia.
    + rewrite Hon in Hp. eapply (Hsame D prev None 0 c); try eassumption. lia.
  - destruct Hord as [Hg Hord]. destruct (follows_wait tpb D prev c t Htp HD HF Hg) as [HF' Hst]. destruct (k_start c) as [st|] eqn:Est; [discriminate|]. cbv zeta in Hp.
    eapply (Hsame (D + loss tpb) t (Some t) v); [lia| | |exact Hord|exact Hp]; [exact HF'|split; reflexivity].
  - destruct Hord as (-> & Hg & Hord). destruct (follows_wait tpb D prev c t Htp HD HF Hg) as [HF' Hst]. eapply (Hsame (D + loss tpb) t None 0); [lia|exact HF'|rewrite Hst; exact Hon|exact Hord|exact Hp].
Qed.
Lemma Forall2_map_left {A B C} (P : B -> C -> Prop) (f : A -> B) l : forall ns, Forall2 P (map f l) ns -> Forall2 (fun h n => P (f h) n) l ns.
Proof. induction l as [|x l IH]; intros ns H; cbn [map] in H; inversion H; subst; constructor; auto. Qed.
Lemma placed_time b tpb tf events mt tr : 1 <= tpb <= 65535 -> mt < 2 ^ 31 -> Forall (fun e => midi_valid (fst e) /\ 0 <= snd e < 2 ^ 31) events -> calm tpb 0 None events mt ->
  orderly tpb 0 None events mt -> placed tpb vclock0 events <> None -> track_new b events tpb mt tf = Ok tr ->
  Forall2 (fun h n => Z.abs (h_onset h * tpb - 24 * n_on n) < tolerance tpb (length events)) (heads tr) (notes_of events) /\
  (tr <> [] -> Z.abs (total_steps tr * tpb - 24 * mt) < tolerance tpb (S (length events))).
Proof.
  intros Htp Hmt HF Hcalm Hord Hne Htr. pose proof (track_placed b tpb tf events mt Htp Hmt HF Hcalm) as H. destruct (placed tpb vclock0 events) as [[l e]|] eqn:Ep; [|congruence].
  destruct H as (tr' & E & Hl & Ht). rewrite Htr in E. injection E as <-. rewrite !tolerance_loss.
  destruct (orderly_placed tpb mt ltac:(lia) events 0 0 None 0 vclock0 l e ltac:(lia)) as [A B]; [unfold follows, vclock0; cbn [k_ticks k_steps]; lia|reflexivity|exact Hord|exact Ep|].
  rewrite Z.add_0_l in B. split; [|intros Hn; rewrite (Ht Hn); exact B]. rewrite <- Hl, Z.add_0_l in A. apply Forall2_map_left in A. exact A.
Qed.
Lemma placed_debug tpb tf events mt tr : 1 <= tpb <= 65535 -> mt < 2 ^ 31 -> Forall (fun e => midi_valid (fst e) /\ 0 <= snd e < 2 ^ 31) events -> calm tpb 0 None events mt ->
  track_new Debug events tpb mt tf = Ok tr -> placed tpb vclock0 events <> None.
Proof. intros Htp Hmt HF Hcalm Htr E. pose proof (track_placed Debug tpb tf events mt Htp Hmt HF Hcalm) as H. rewrite E in H. exact (H eq_refl tr Htr). Qed.
Lemma placed_time_debug tpb tf events mt tr : 1 <= tpb <= 65535 -> mt < 2 ^ 31 -> Forall (fun e => midi_valid (fst e) /\ 0 <= snd e < 2 ^ 31) events -> calm tpb 0 None events mt ->
  orderly tpb 0 None events mt -> track_new Debug events tpb mt tf = Ok tr ->
  Forall2 (fun h n => Z.abs (h_onset h * tpb - 24 * n_on n) < tolerance tpb (length events)) (heads tr) (notes_of events) /\
  (tr <> [] -> Z.abs (total_steps tr * tpb - 24 * mt) < tolerance tpb (S (length events))).
Proof. intros Htp Hmt HF Hc Ho Ht. apply (placed_time Debug tpb tf events mt tr Htp Hmt HF Hc Ho); [eapply placed_debug; eassumption|exact Ht]. Qed.
