(** SettingProofs.v: instrument, volume and tempo commands, from a converted voice to the driver (C61, C62). *)
From Coq Require Import ZArith List Bool Lia ZifyBool ZifyNat Permutation Sorted.
From Verif Require Import Base F32 Messages Command Track Song ProofLib SpecTime SpecVoice SpecNspc SpecLoop SpecRom SpecAram
  SpecSong SpecMidi SpecNotes SpecPlayback SpecGate SpecControl SpecHeard SplitProofs TrackProofs SlideProofs OptExpand AramProofs AramMore
  SongProofs ControlProofs PlaybackProofs GateProofs HeardProofs.
Ltac Zify.zify_post_hook ::= Z.div_mod_to_equations.
Open Scope list_scope.

(** ** What is told depends on what is heard *)
Lemma heard_steps e1 e2 : heard false e1 = heard false e2 -> ev_token e1 = ev_token e2 /\ event_steps e1 = event_steps e2.
Proof.
  unfold heard, event_steps. cbn [andb]. intros H. injection H as H1 H2. rewrite H1 in *. split; [reflexivity|].
  destruct (SpecAram.sounding (ev_token e2)); [now rewrite H2|reflexivity].
Qed.
Lemma told_heard op es1 : forall es2 now, map (heard false) es1 = map (heard false) es2 -> told_from op now es1 = told_from op now es2.
Proof.
  induction es1 as [|e1 es1 IH]; intros [|e2 es2] now H; try discriminate; [reflexivity|].
  cbn [map] in H. assert (H1 : heard false e1 = heard false e2) by congruence. assert (H2 : map (heard false) es1 = map (heard false) es2) by congruence.
  destruct (heard_steps _ _ H1) as [E1 E2]. cbn [told_from]. rewrite E1, E2. f_equal. now apply IH.
Qed.
Lemma sounds_heard op es1 : forall es2 now set prev, map (heard false) es1 = map (heard false) es2 ->
  sounds_from op now set prev es1 = sounds_from op now set prev es2.
Proof.
  induction es1 as [|e1 es1 IH]; intros [|e2 es2] now set prev H; try discriminate; [reflexivity|].
  cbn [map] in H. assert (H1 : heard false e1 = heard false e2) by congruence. assert (H2 : map (heard false) es1 = map (heard false) es2) by congruence.
  destruct (heard_steps _ _ H1) as [E1 E2]. cbn [sounds_from]. rewrite E1, E2. f_equal. now apply IH.
Qed.
Lemma sounds_attacks op es : forall now set prev, map (fun x => (so_on x, so_pitch x)) (sounds_from op now set prev es) = attacks_from now prev es.
Proof.
  induction es as [|e es IH]; intros now set prev; [reflexivity|]. cbn [sounds_from attacks_from]. rewrite map_app, IH.
  f_equal. destruct (attack_of prev (ev_token e)); reflexivity.
Qed.

(** ** Commands of a track *)
Definition ours (op : Z) : Prop := op = INSTRUMENT \/ op = TEMPO \/ op = VOLUME.
Definition arg (op : Z) (c : command) : option Z := given op (token_of c).
Lemma arg_control op c : ours op -> is_control c = false -> arg op c = None.
Proof. intros [->|[->| ->]]; destruct c; intros H; try reflexivity; discriminate. Qed.
Definition picks (op : Z) (l : list (Z * command)) : list (Z * Z) :=
  flat_map (fun x => match arg op (snd x) with Some v => [(fst x, v)] | None => [] end) l.
Lemma told_prescribed op l : ours op -> forall now dur vs, Forall lasting l ->
  told_from op now (prescribed l dur vs) = picks op (timed_controls now l).
Proof.
  intros Ho. induction l as [|pc l IH]; intros now dur vs HL; [reflexivity|]. inversion HL as [|? ? Hpc HL']; subst.
  cbn [prescribed told_from timed_controls ev_token]. unfold event_steps. cbn [ev_token ev_dur]. rewrite (lasting_steps dur pc Hpc), (IH _ _ _ HL').
  unfold picks. rewrite flat_map_app. f_equal. destruct (is_control (cmd pc)) eqn:E.
  - cbn [flat_map fst snd app]. unfold arg. rewrite app_nil_r. reflexivity.
  - pose proof (arg_control op (cmd pc) Ho E) as Ha. unfold arg in Ha. rewrite Ha. reflexivity.
Qed.

Fixpoint sets_of (op : Z) (set : option Z) (l : list mark) : list (option Z) :=
  match l with
  | [] => []
  | Control c :: r => sets_of op (match arg op c with Some x => Some x | None => set end) r
  | Sounds _ :: r => set :: sets_of op set r
  end.
Lemma sounds_prescribed op l : ours op -> forall last now set prev dur vs, vel_from last l ->
  (last = true <-> slid_to prev <> None) ->
  map so_set (sounds_from op now set prev (prescribed l dur vs)) = sets_of op set (track_outline l).
Proof.
  intros Ho. induction l as [|pc l IH]; intros last now set prev dur vs HV Hp; [reflexivity|]. destruct HV as [Hv HV].
  unfold track_outline. cbn [prescribed sounds_from flat_map ev_token]. fold (track_outline l). rewrite map_app.
  assert (Hp' : slide_cmd pc = true <-> slid_to (Some (token_of (cmd pc))) <> None).
  { rewrite slid_token. unfold slide_cmd. destruct (cmd pc); split; intros; try discriminate; try congruence; reflexivity. }
  rewrite (IH (slide_cmd pc) _ _ _ _ _ HV Hp'). clear IH.
  destruct (is_control (cmd pc)) eqn:Ec.
  - assert (Ha : attack_of prev (token_of (cmd pc)) = None) by (destruct (cmd pc); try discriminate; reflexivity).
    rewrite Ha. reflexivity.
  - pose proof (arg_control op (cmd pc) Ho Ec) as Hn. unfold arg in Hn. rewrite Hn. unfold vel_rule in Hv.
    destruct (cmd pc) eqn:E; cbn [token_of attack_of] in *; try (rewrite Hv; reflexivity); try discriminate.
    + destruct (velocity pc); [reflexivity|congruence].
    + destruct last.
      * destruct (slid_to prev); [|destruct Hp as [Hp _]; exfalso; apply Hp; reflexivity]. destruct (velocity pc); [reflexivity|congruence].
      * destruct (slid_to prev); [destruct Hp as [_ Hp]; discriminate Hp; discriminate|]. rewrite Hv. reflexivity.
Qed.

(** ** One converted voice *)
Lemma converted_lasting b events tpb mt tf tr : 1 <= tpb <= 65535 -> voice_ok tpb mt events ->
  track_new b events tpb mt tf = Ok tr -> Forall lasting tr.
Proof.
  intros Hg HV H. destruct (track_converts b tpb tf events mt Hg HV) as (tr' & H' & _ & _ & Hd).
  rewrite H in H'. injection H' as <-. eapply Forall_impl; [|exact Hd]. exact dur_ok_lasting.
Qed.
Definition picked (op : Z) (c : change) : bool := match arg op (ch_cmd c) with Some _ => true | None => false end.
Definition on_time (tpb tol : Z) (exact : bool) (op : Z) (x : Z * Z) (c : change) : Prop :=
  arg op (ch_cmd c) = Some (snd x) /\ fst x * tpb - 24 * ch_time c < tol /\
  (exact = true -> - tol < fst x * tpb - 24 * ch_time c).
Lemma converted_told op b events tpb mt tf tr n : ours op -> 1 <= tpb <= 65535 -> voice_ok tpb mt events -> in_order events ->
  track_new b events tpb mt tf = Ok tr -> (length events <= n)%nat ->
  Forall2 (on_time tpb (tolerance tpb n) (op =? INSTRUMENT) op) (told_from op 0 (prescribed tr None None)) (filter (picked op) (changes_of tf events)).
Proof.
  intros Ho Hg HV Hs H Hn. rewrite (told_prescribed op tr Ho) by (eapply converted_lasting; eassumption).
  pose proof (track_changes_not_late b events tpb mt tf tr Hg HV Hs H) as HF.
  pose proof (tolerance_mono tpb _ _ Hn) as Ht.
  induction HF as [|x c l1 l2 (E & H1 & H2) _ IH]; [constructor|]. unfold picks. cbn [flat_map filter]. fold (picks op l1).
  unfold picked at 1. rewrite E. destruct (arg op (ch_cmd c)) as [v|] eqn:Ea; [|exact IH].
  cbn [app]. constructor; [|exact IH]. unfold on_time. cbn [fst snd]. split; [exact Ea|]. split; [lia|]. intros Ex.
  assert (op = INSTRUMENT) by lia. subst op. destruct (ch_cmd c) eqn:Ec; try discriminate. specialize (H2 _ eq_refl). lia.
Qed.

(** ** A whole song *)
Lemma frame_told s n i pre es : parts s = [seq 0 n] -> (i < n)%nat -> frame_cmds s i pre ->
  told TEMPO (control_events pre ++ es) = told_from TEMPO 0 es /\
  told VOLUME (control_events pre ++ es) = (0, 0xc8) :: told_from VOLUME 0 es /\
  exists prev, slid_to prev = None /\ sounds_with INSTRUMENT (control_events pre ++ es) = sounds_from INSTRUMENT 0 None prev es /\
    sounds_with VOLUME (control_events pre ++ es) = sounds_from VOLUME 0 (Some 0xc8) prev es.
Proof.
  intros Hp Hi (H1 & H2 & _). rewrite Hp in *. destruct i as [|i].
  - rewrite H1; [|exists (seq 1 (n - 1)); destruct n; [lia|left; cbn [seq Nat.sub]; now rewrite Nat.sub_0_r]].
    split; [reflexivity|]. split; [reflexivity|]. exists (Some (TControl 0xed [0xc8])). split; [reflexivity|]. split; reflexivity.
  - rewrite H2.
    + split; [reflexivity|]. split; [reflexivity|]. exists (Some (TControl 0xed [0xc8])). split; [reflexivity|]. split; reflexivity.
    + intros q [Hq|[]]. destruct n; [lia|]. cbn [seq] in Hq. discriminate.
    + exists (seq 0 n). split; [now left|]. apply in_seq. lia.
Qed.
(** What each converted voice gives, the whole song gives. *)
Lemma song_each {A B} (f : list event -> list A) (g : list tmsg -> list B) (R : A -> B -> Prop) b voices tpb mt n tf opt s trs mem a lp at_ :
  f [] = [] ->
  (forall v t, In v voices -> voice_ok tpb mt v -> (length v <= n)%nat -> track_new b v tpb mt tf = Ok t ->
     (t = [] -> g v = []) /\
     (t <> [] -> forall m i pre es, parts s = [seq 0 m] -> (i < m)%nat -> frame_cmds s i pre ->
       map (heard false) es = map (heard false) (prescribed t None None) -> Forall2 R (f (control_events pre ++ es)) (g v))) ->
  song_from_midi b voices tpb mt tf opt = Ok s -> (length voices <= 8)%nat -> 1 <= tpb <= 65535 -> voices_ok tpb mt n voices ->
  voice_tracks b voices tpb mt tf trs -> Forall seven_bit trs -> (opt = true -> keeps_music trs (tracks s)) ->
  song_in mem a lp s at_ -> mem 0 = None ->
  exists ess, song_plays mem a ess /\ Forall2 R (flat_map f ess) (flat_map g voices).
Proof.
  intros Hf0 Hvoice H Hv8 Hg HV Htr Hsh Hopt Hin H0.
  destruct (song_events false b voices tpb mt n tf opt s trs mem a lp at_ H Hv8 Hg HV Htr Hsh Hopt) as (ess & Hp & Hpart & Hess); try assumption.
  { intros E. discriminate. }
  exists (ess ++ repeat [] (8 - length trs)). split; [exact Hp|].
  rewrite flat_map_app. assert (Er : forall m, flat_map f (repeat [] m) = []) by (induction m; [reflexivity|cbn [repeat flat_map]; now rewrite Hf0]).
  rewrite Er, app_nil_r. clear Er Hp.
  assert (Hall : Forall2 (fun es (tr : track) => forall g0, (forall m i pre es, parts s = [seq 0 m] -> (i < m)%nat -> frame_cmds s i pre ->
       map (heard false) es = map (heard false) (prescribed tr None None) -> Forall2 R (f (control_events pre ++ es)) g0) -> Forall2 R (f es) g0) ess trs).
  { eapply forall2_impl; [|exact Hess]. intros es tr (i & pre & es' & Hi & Hf & -> & E) g0 HX. eapply HX; eassumption. }
  clear Hess. destruct Htr as (ts & HF & ->). clear - HF HV Hvoice Hall. revert ess HV Hvoice Hall.
  induction HF as [|v t vs ts E _ IH]; intros ess HV Hvoice Hall.
  { cbn [filter] in Hall. inversion Hall; subst. constructor. }
  inversion HV as [|? ? (Hv1 & Hv2 & Hv3) HV']; subst.
  destruct (Hvoice v t (or_introl eq_refl) Hv1 Hv2 E) as (Hnil & Hc).
  assert (IH' := fun ess H => IH ess HV' (fun v t Hi => Hvoice v t (or_intror Hi)) H).
  cbn [filter flat_map] in *. destruct t as [|c t].
  - rewrite (Hnil eq_refl). now apply IH'.
  - inversion Hall as [|es ? ess' ? Hx Hall']; subst. cbn [flat_map]. apply Forall2_app; [|now apply IH']. apply Hx, Hc. discriminate.
Qed.
Lemma song_tempos b voices tpb mt n tf opt s trs mem a lp at_ :
  song_from_midi b voices tpb mt tf opt = Ok s -> (length voices <= 8)%nat -> 1 <= tpb <= 65535 -> voices_ok tpb mt n voices ->
  Forall in_order voices -> voice_tracks b voices tpb mt tf trs -> Forall seven_bit trs -> (opt = true -> keeps_music trs (tracks s)) ->
  song_in mem a lp s at_ -> mem 0 = None ->
  exists ess, song_plays mem a ess /\
    Forall2 (on_time tpb (tolerance tpb n) false TEMPO) (flat_map (told TEMPO) ess) (flat_map (fun v => filter (picked TEMPO) (changes_of tf v)) voices).
Proof.
  intros H Hv8 Hg HV Hso. intros. eapply song_each; try eassumption; [reflexivity|]. intros v t Hi Hok Hn Ht.
  assert (Hv : in_order v) by (rewrite Forall_forall in Hso; auto).
  pose proof (converted_told TEMPO b v tpb mt tf t n (or_intror (or_introl eq_refl)) Hg Hok Hv Ht Hn) as HC. split.
  - intros ->. cbn [prescribed told_from] in HC. now inversion HC.
  - intros _ m i pre es Hm Hi' Hf E. destruct (frame_told s m i pre es Hm Hi' Hf) as (-> & _). rewrite (told_heard _ _ _ _ E). exact HC.
Qed.
(** Notes with the value of [op] at their start. *)
Definition sound_ok (tpb tol : Z) (x : sound) (y : SpecVoice.vnote * option Z) : Prop :=
  heard_at tpb tol (so_on x, so_pitch x) (n_on (fst y)) (n_key (fst y)) /\ so_set x = snd y.
Lemma forall2_both {A B C} (P : A -> B -> Prop) (h : A -> C) l1 : forall l2 l3, Forall2 P l1 l2 -> map h l1 = l3 ->
  Forall2 (fun x y => P x (fst y) /\ h x = snd y) l1 (combine l2 l3).
Proof. induction l1; intros l2 l3 HF E; inversion HF; subst; cbn [map combine]; constructor; auto. Qed.
Lemma forall2_map_l {A B C} (P : C -> B -> Prop) (h : A -> C) l1 : forall l2, Forall2 P (map h l1) l2 -> Forall2 (fun x y => P (h x) y) l1 l2.
Proof. induction l1; intros l2 HF; inversion HF; subst; constructor; auto. Qed.
Lemma voice_valid tpb mt events : voice_ok tpb mt events -> Forall (fun ev => midi_valid (fst ev)) events.
Proof.
  unfold voice_ok. generalize 0 at 1, (@None Z), (@None (Z * Z)).
  induction events as [|[m t] r IH]; intros prev fin open HV; [constructor|]. cbn [voice_from] in HV. destruct HV as (Hm & _ & HV).
  constructor; [exact Hm|].
  destruct m as [dt ev data|dt ev|dt ev data|]; try (eapply IH; exact HV).
  destruct ev; try (eapply IH; exact HV); try (destruct HV as (_ & _ & HV); eapply IH; exact HV).
  destruct open as [[on k']|]; [destruct HV as (_ & _ & _ & HV)|]; eapply IH; exact HV.
Qed.
Lemma converted_sounds op b events tpb mt tf tr prev set n : ours op -> 1 <= tpb <= 65535 -> voice_ok tpb mt events ->
  track_new b events tpb mt tf = Ok tr -> slid_to prev = None -> (length events <= n)%nat ->
  Forall2 (sound_ok tpb (tolerance tpb n)) (sounds_from op 0 set prev (prescribed tr None None))
    (combine (notes_of events) (sets_of op set (outline_of tf events))).
Proof.
  intros Ho Hg HV H Hp Hn. apply forall2_both with (h := so_set) (P := fun x y => heard_at tpb (tolerance tpb n) (so_on x, so_pitch x) (n_on y) (n_key y)).
  - apply forall2_map_l with (h := fun x => (so_on x, so_pitch x)) (P := fun x y => heard_at tpb (tolerance tpb n) x (n_on y) (n_key y)).
    rewrite sounds_attacks. eapply forall2_impl; [|eapply converted_attacks; [exact Hg|exact HV|exact H|exact Hp]].
    intros x y. now apply heard_mono.
  - rewrite <- (track_outline_kept b events tpb mt tf tr (voice_valid _ _ _ HV) H). eapply sounds_prescribed with (last := false); [exact Ho|exact (track_vel _ _ _ _ _ _ H)|].
    rewrite Hp. split; [discriminate|]. intros E. now elim E.
Qed.
Lemma song_instruments b voices tpb mt n tf opt s trs mem a lp at_ :
  song_from_midi b voices tpb mt tf opt = Ok s -> (length voices <= 8)%nat -> 1 <= tpb <= 65535 -> voices_ok tpb mt n voices ->
  voice_tracks b voices tpb mt tf trs -> Forall seven_bit trs -> (opt = true -> keeps_music trs (tracks s)) ->
  song_in mem a lp s at_ -> mem 0 = None ->
  exists ess, song_plays mem a ess /\
    Forall2 (sound_ok tpb (tolerance tpb n)) (flat_map (sounds_with INSTRUMENT) ess)
      (flat_map (fun v => combine (notes_of v) (sets_of INSTRUMENT None (outline_of tf v))) voices).
Proof.
  intros H Hv8 Hg HV. intros. eapply song_each; try eassumption; [reflexivity|]. intros v t Hi Hok Hn Ht.
  assert (HC : forall prev, slid_to prev = None -> Forall2 (sound_ok tpb (tolerance tpb n)) (sounds_from INSTRUMENT 0 None prev (prescribed t None None))
    (combine (notes_of v) (sets_of INSTRUMENT None (outline_of tf v)))) by (intros; eapply converted_sounds; try eassumption; now left). split.
  - intros ->. specialize (HC None eq_refl). cbn [prescribed sounds_from] in HC. now inversion HC.
  - intros _ m i pre es Hm Hi' Hf E. destruct (frame_told s m i pre es Hm Hi' Hf) as (_ & _ & prev & Hp & -> & _).
    rewrite (sounds_heard _ _ _ _ _ _ E). now apply HC.
Qed.
Lemma song_volumes b voices tpb mt n tf opt s trs mem a lp at_ :
  song_from_midi b voices tpb mt tf opt = Ok s -> (length voices <= 8)%nat -> 1 <= tpb <= 65535 -> voices_ok tpb mt n voices ->
  voice_tracks b voices tpb mt tf trs -> Forall seven_bit trs -> (opt = true -> keeps_music trs (tracks s)) ->
  song_in mem a lp s at_ -> mem 0 = None ->
  exists ess, song_plays mem a ess /\
    Forall2 (sound_ok tpb (tolerance tpb n)) (flat_map (sounds_with VOLUME) ess)
      (flat_map (fun v => combine (notes_of v) (sets_of VOLUME (Some 0xc8) (outline_of tf v))) voices).
Proof.
  intros H Hv8 Hg HV. intros. eapply song_each; try eassumption; [reflexivity|]. intros v t Hi Hok Hn Ht.
  assert (HC : forall prev, slid_to prev = None -> Forall2 (sound_ok tpb (tolerance tpb n)) (sounds_from VOLUME 0 (Some 0xc8) prev (prescribed t None None))
    (combine (notes_of v) (sets_of VOLUME (Some 0xc8) (outline_of tf v)))) by (intros; eapply converted_sounds; try eassumption; right; now right). split.
  - intros ->. specialize (HC None eq_refl). cbn [prescribed sounds_from] in HC. now inversion HC.
  - intros _ m i pre es Hm Hi' Hf E. destruct (frame_told s m i pre es Hm Hi' Hf) as (_ & _ & prev & Hp & _ & ->).
    rewrite (sounds_heard _ _ _ _ _ _ E). now apply HC.
Qed.
