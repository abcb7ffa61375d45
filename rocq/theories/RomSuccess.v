(** RomSuccess.v: a build that succeeds had songs that can be loaded (C72). *)
From Coq Require Import ZArith List Bool Lia String.
From Verif Require Import Base F32 Messages Command Track Song Paths Manifest Rom Midi Cli SpecSong SpecMidi SpecVoice SpecVoices SpecLoop SpecNspc SpecRom SpecBank SpecAram SpecPlayback SpecConsole SpecScore SpecJson
  Run SpecRun SpecCommand SpecSuccess ProofLib SongProofs JsonProofs SongBytes AramMore OptExpand RomBanks RomFinal RunProofs CommandPaths CommandProofs.
Import ListNotations.
Open Scope Z_scope.
Open Scope list_scope.

(** ** Encoded tracks are bytes. *)
Definition cmd_bytes (c : command) : Prop := match c with CallLoop _ n => u8 n | _ => command_ok c end.
Definition pc_bytes (c : pcmd) : Prop := option_ok (duration c) /\ option_ok (velocity c) /\ option_ok (sustain c) /\ cmd_bytes (cmd c).

Lemma u8_lor x y : u8 x -> u8 y -> u8 (Z.lor x y).
Proof.
  unfold u8. intros Hx Hy. assert (0 <= Z.lor x y) by (apply Z.lor_nonneg; lia). split; [assumption|].
  destruct (Z.eq_dec (Z.lor x y) 0) as [->|Hne]; [lia|]. apply Z.log2_lt_pow2 with (b := 8); [lia|]. rewrite Z.log2_lor by lia.
  apply Z.max_lub_lt.
  - destruct (Z.eq_dec x 0) as [->|]; [cbn; lia|]. apply Z.log2_lt_pow2; lia.
  - destruct (Z.eq_dec y 0) as [->|]; [cbn; lia|]. apply Z.log2_lt_pow2; lia.
Qed.
Lemma u8_land x y : 0 <= y -> u8 x -> u8 (Z.land x y).
Proof.
  unfold u8. intros Hy Hx. assert (0 <= Z.land x y) by (apply Z.land_nonneg; lia). split; [assumption|].
  destruct (Z.eq_dec (Z.land x y) 0) as [->|Hne]; [lia|]. apply Z.log2_lt_pow2 with (b := 8); [lia|].
  pose proof (Z.log2_land x y ltac:(lia) Hy). assert (Hl : Z.log2 x < 8); [|lia]. destruct (Z.eq_dec x 0) as [->|]; [cbn; lia|]. apply Z.log2_lt_pow2; lia.
Qed.
Lemma requested_u8 pc vs : pc_bytes pc -> option_ok vs -> option_ok (requested_vs pc vs).
Proof.
  intros (_ & H1 & H2 & _) Hv. unfold requested_vs. destruct (_ || _); [|exact I].
  assert (H0 : u8 (oelse vs 0x7d)) by (destruct vs; [exact Hv|unfold u8; cbn; lia]).
  set (v0 := oelse vs 0x7d) in *. clearbody v0.
  assert (K : forall v1 nz1, u8 v1 -> option_ok (let '(v2, nz2) := match sustain pc with
      | Some s => if 0 <? s then (Z.lor (Z.land v1 0x0F) (as_u 8 (Z.shiftl s 4)), true) else (v1, nz1) | None => (v1, nz1) end in if nz2 then Some v2 else None)).
  { intros v1 nz1 Hv1. destruct (sustain pc) as [s|].
    - destruct (0 <? s); [cbn [option_ok]; apply u8_lor; [apply u8_land; [lia|exact Hv1]|apply as_u8]|destruct nz1; [exact Hv1|exact I]].
    - destruct nz1; [exact Hv1|exact I]. }
  destruct (velocity pc) as [v|]; [destruct (0 <? v)|]; apply K; try assumption. apply u8_lor; [apply u8_land; [lia|exact H0]|exact H1].
Qed.
Lemma command_u8 c out ls : cmd_bytes c -> Forall u8 out -> Forall u8 (fst (command_write c out ls)).
Proof.
  intros Hc Ho. destruct c; cbn [command_write fst cmd_bytes command_ok] in *; repeat (apply Forall_app; split); try assumption;
    repeat match goal with H : _ /\ _ |- _ => destruct H | |- Forall _ (_ :: _) => constructor | |- Forall _ [] => constructor end; try assumption; unfold u8; lia.
Qed.
Lemma pcmd_u8 pc out dur vs ls : pc_bytes pc -> Forall u8 out -> u8 dur -> option_ok vs ->
  let '(out', dur', vs', _) := pcmd_write pc out dur vs ls in Forall u8 out' /\ u8 dur' /\ option_ok vs'.
Proof.
  intros Hp Ho Hd Hv. pose proof (requested_u8 pc vs Hp Hv) as Hr. destruct Hp as (Hdur & _ & _ & Hc). unfold pcmd_write.
  assert (HA : exists d' w, (match duration pc with Some d => if negb (d =? dur) then (d, if 0 <? d then Some d else None) else (dur, None) | None => (dur, None) end) = (d', w) /\ u8 d' /\ option_ok w).
  { destruct (duration pc) as [d|]; [destruct (negb (d =? dur)); [destruct (0 <? d)|]|]; eexists; eexists; (split; [reflexivity|]); cbn; auto. }
  destruct HA as (d' & w & -> & Hd' & Hw).
  assert (HB : exists v' x, (match requested_vs pc vs with
     | Some q => match vs with Some pv => if negb (pv =? q) then (Some q, Some q) else (vs, None) | None => (Some q, Some q) end
     | None => match vs with None => if is_note (cmd pc) then (Some 0x7d, Some 0x7d) else (vs, None) | Some _ => (vs, None) end end) = (v', x) /\ option_ok v' /\ option_ok x).
  { destruct (requested_vs pc vs) as [q|]; destruct vs as [pv|]; [destruct (negb (pv =? q))| | |destruct (is_note (cmd pc))]; eexists; eexists; (split; [reflexivity|]); cbn in *; unfold u8 in *; (split; first [exact I|assumption|lia]). }
  destruct HB as (v' & x & -> & Hv' & Hx).
  set (out1 := match w with Some d => out ++ [d] | None => if is_some x then out ++ [dur] else out end).
  assert (H1 : Forall u8 out1).
  { unfold out1. destruct w as [d|]; [apply Forall_app; split; [assumption|constructor; [exact Hw|constructor]]|].
    destruct (is_some x); [apply Forall_app; split; [assumption|constructor; [exact Hd|constructor]]|assumption]. }
  set (out2 := match x with Some q => out1 ++ [q] | None => out1 end).
  assert (H2 : Forall u8 out2) by (unfold out2; destruct x; [apply Forall_app; split; [assumption|constructor; [exact Hx|constructor]]|assumption]).
  pose proof (command_u8 (cmd pc) out2 ls Hc H2) as H3. destruct (command_write (cmd pc) out2 ls) as [out3 l']. cbn [fst] in H3. auto.
Qed.
Lemma track_u8 l : Forall pc_bytes l -> forall out dur vs ls, Forall u8 out -> u8 dur -> option_ok vs -> Forall u8 (fst (track_write_from l out dur vs ls)).
Proof.
  intros H. induction H as [|pc l Hp _ IH]; intros out dur vs ls Ho Hd Hv; cbn [track_write_from]; [exact Ho|].
  pose proof (pcmd_u8 pc out dur vs ls Hp Ho Hd Hv) as K. destruct (pcmd_write pc out dur vs ls) as [[[o' d'] v'] l']. destruct K as (K1 & K2 & K3). apply IH; assumption.
Qed.
Lemma written_u8 s i d : Forall (Forall pc_bytes) (tracks s) -> write_track s [] i [] = Ok d -> Forall u8 (fst d).
Proof.
  intros HF H. unfold write_track in H. inv_bind H. unfold or_panic in Ha. destruct (nth_error (tracks s) i) as [tr|] eqn:E; [|discriminate]. injection Ha as <-.
  apply nth_error_In in E. rewrite Forall_forall in HF. specialize (HF tr E). destruct tr as [|pc tr]; [injection H as <-; constructor|]. inv_bind H.
  set (o1 := if a then [] ++ PREAMBLE_TRACK_0 else if existsb (fun p => existsb (Nat.eqb i) p) (parts s) then [] ++ PREAMBLE_OTHER_TRACK else []) in *.
  assert (Ho : Forall u8 o1).
  { unfold o1, PREAMBLE_TRACK_0, PREAMBLE_OTHER_TRACK. destruct a; [|destruct (existsb _ _)]; cbn [app]; repeat (apply Forall_cons; [unfold u8; lia|]); constructor. }
  assert (Hd : u8 0xff) by (unfold u8; lia).
  pose proof (track_u8 _ HF o1 0xff None [] Ho Hd I) as K. unfold track_write in H. destruct (track_write_from (pc :: tr) o1 0xff None []) as [o2 l2]. injection H as <-. cbn [fst] in *.
  apply Forall_app. split; [exact K|]. constructor; [unfold u8; lia|constructor].
Qed.

(** ** Tracks without calls have no references. *)
Lemma track_no_refs l : loop_free l -> forall out dur vs ls, snd (track_write_from l out dur vs ls) = ls.
Proof.
  intros H. induction H as [|pc l Hp _ IH]; intros out dur vs ls; cbn [track_write_from]; [reflexivity|].
  assert (K : forall o, snd (command_write (cmd pc) o ls) = ls) by (intros o; destruct (cmd pc) eqn:E; try reflexivity; destruct (Hp _ _ eq_refl)).
  unfold pcmd_write. repeat match goal with |- context [let '(_, _) := match duration pc with _ => _ end in _] => destruct (match duration pc with Some d => _ | None => _ end) as [d' w] end.
  destruct (match requested_vs pc vs with Some q => _ | None => _ end) as [v' x].
  match goal with |- context [command_write (cmd pc) ?o ls] => specialize (K o); destruct (command_write (cmd pc) o ls) as [o3 l3] end. cbn [snd] in K. subst l3. apply IH.
Qed.
Lemma written_no_refs s i d : Forall loop_free (tracks s) -> write_track s [] i [] = Ok d -> snd d = [].
Proof.
  intros HF H. unfold write_track in H. inv_bind H. unfold or_panic in Ha. destruct (nth_error (tracks s) i) as [tr|] eqn:E; [|discriminate]. injection Ha as <-.
  apply nth_error_In in E. rewrite Forall_forall in HF. specialize (HF tr E). destruct tr as [|pc tr]; [injection H as <-; reflexivity|]. inv_bind H. unfold track_write in H.
  match type of H with context [track_write_from ?l ?o ?d ?v ?ls] => pose proof (track_no_refs l HF o d v ls) as K; destruct (track_write_from l o d v ls) as [o2 l2] end.
  injection H as <-. exact K.
Qed.

(** ** A song that was written has its tracks encoded. *)
Lemma ofold_each {A S} (f : S -> A -> outcome S) l : forall s s', ofold f l s = Ok s' -> forall x, In x l -> exists s1 s2, f s1 x = Ok s2.
Proof.
  induction l as [|y l IH]; intros s s' H x Hx; [destruct Hx|]. cbn [ofold] in H. inv_bind H. destruct Hx as [->|Hx]; [eauto|]. eapply IH; eassumption.
Qed.
Lemma encodes_seq s : (forall i, (i < length (tracks s))%nat -> exists d, write_track s [] i [] = Ok d) ->
  forall n k, (k + n = length (tracks s))%nat -> exists l, length l = n /\ forall i d, nth_error l i = Some d -> write_track s [] (k + i) [] = Ok d.
Proof.
  intros H. induction n as [|n IH]; intros k Hk.
  - exists []. split; [reflexivity|]. intros i d E. destruct i; discriminate.
  - destruct (IH (S k)) as (l & Hl & Hi); [lia|]. destruct (H k) as (d0 & Hd0); [lia|]. exists (d0 :: l). split; [cbn; lia|].
    intros i d E. destruct i as [|i]; cbn [nth_error] in E; [injection E as <-; rewrite Nat.add_0_r; exact Hd0|]. replace (k + S i)%nat with (S k + i)%nat by lia. apply Hi. exact E.
Qed.
Lemma write_song_ready b verbose bl st lp s st' : write_song b verbose bl st lp s = Ok st' -> Forall (Forall pc_bytes) (tracks s) ->
  (forall part, nth_error (parts s) 0 = Some part -> (length part <= 8)%nat) -> exists l, song_ready s l.
Proof.
  intros H Hb Hp. unfold write_song in H. do 3 (inv_bind H). cbv zeta in *.
  assert (HE : forall i, (i < length (tracks s))%nat -> exists d, write_track s [] i [] = Ok d).
  { intros i Hi. match goal with X : ofold _ (seq 0 (get_num_tracks s)) _ = Ok _ |- _ => destruct (ofold_each _ _ _ _ X i) as (s1 & s2 & E); [apply in_seq; unfold get_num_tracks; lia|] end.
    unfold write_one_track in E. inv_bind E. eauto. }
  destruct (encodes_seq s HE (length (tracks s)) 0%nat eq_refl) as (l & Hl & Hi). exists l. split; [split; assumption|]. split; [exact Hp|].
  apply Forall_forall. intros d Hd. apply In_nth_error in Hd. destruct Hd as (i & E). eapply written_u8; [exact Hb|apply (Hi i); exact E].
Qed.

Definition slot_bytes (b : build) (conv : path -> f32 -> outcome song) (sd : song_def) : Prop :=
  forall p s, Manifest.input sd = Some p -> conv p (Manifest.tempo_factor sd) = Ok s ->
    Forall (Forall pc_bytes) (tracks s) /\ forall part, nth_error (parts s) 0 = Some part -> (length part <= 8)%nat.
Lemma songs_loaded b verbose bl conv : forall sds st st', ofold (write_song_def b verbose bl conv) sds st = Ok st' -> Forall (slot_bytes b conv) sds ->
  exists ss ls, loaded b conv sds ss ls.
Proof.
  induction sds as [|sd sds IH]; intros st st' H HF; [exists [], []; constructor|]. cbn [ofold] in H. inv_bind H. inversion HF as [|? ? H1 H2]; subst.
  destruct (IH _ _ H H2) as (ss & ls & HL). unfold write_song_def in Ha. inv_bind Ha. inv_bind Ha.
  assert (K : Forall (Forall pc_bytes) (tracks a1) /\ forall part, nth_error (parts a1) 0 = Some part -> (length part <= 8)%nat).
  { unfold load_song in *. destruct (Manifest.input sd) as [p|] eqn:Ep; [eapply H1; eassumption|].
    match goal with X : song_empty b = Ok _ |- _ => apply ConsoleProofs.empty_song in X; subst a1 end. split; [cbn; repeat constructor|]. intros part E. injection E as <-. cbn. lia. }
  destruct K as [K1 K2]. destruct (write_song_ready _ _ _ _ _ _ _ Ha K1 K2) as (l & Hl). exists (a1 :: ss), ((Manifest.loops sd, l) :: ls). constructor; try assumption.
  unfold load_song in *. destruct (Manifest.input sd); assumption.
Qed.

(** ** Banks. *)
Definition room_from (i first : nat) (m : manifest) : Prop :=
  forall k bk fa, nth_error m k = Some bk -> nth_error first_songs (i + k) = Some fa -> 2 * Z.of_nat (first + count_songs (firstn k m) + length (songs bk)) <= fa - 0xd000.
Lemma banks_loaded b verbose conv : forall m i first r al r' Ls, write_banks b verbose m i first r al conv = Ok r' ->
  Forall (fun bk => Forall (slot_bytes b conv) (songs bk)) m -> length Ls = length m -> Forall table_in_base Ls -> room_from i first m ->
  (forall k bk L fa ss ls, nth_error m k = Some bk -> nth_error Ls k = Some L -> nth_error first_songs (i + k) = Some fa ->
     loaded b conv (songs bk) ss ls -> songs_stay (lo_base L) (lo_ovf L) (payload (lo_base L) + (fa - 0xd000)) ls) ->
  exists sss, banks_fit b conv i first m Ls sss.
Proof.
  induction m as [|bk m IH]; intros i first r al r' Ls H HF HL HT HR HS; destruct Ls as [|L Ls]; try discriminate; [exists []; constructor|].
  cbn [write_banks] in H. inv_bind H. inv_bind H. inv_bind H. inversion HF as [|? ? F1 F2]; subst. inversion HT as [|? ? T1 T2]; subst.
  unfold write_bank in Ha1. inv_bind Ha1. inv_bind Ha1. destruct (songs_loaded _ _ _ _ _ _ _ Ha3 F1) as (ss & ls & Hls).
  assert (Hfa : nth_error first_songs i = Some a0).
  { unfold or_panic in Ha0. destruct (nth_error BANK_FIRST_SONG_ADDRS i) eqn:E; [|discriminate]. injection Ha0 as <-. exact E. }
  destruct (IH (S i) (first + length (songs bk))%nat a1 al r' Ls H F2) as (sss & Hsss); [cbn in HL; lia|exact T2| | |].
  - intros k bk' fa' Hk Hf. specialize (HR (S k) bk' fa' Hk). replace (i + S k)%nat with (S i + k)%nat in HR by lia. specialize (HR Hf).
    cbn [firstn] in HR. unfold count_songs in *. cbn [map list_sum fold_right] in HR. unfold list_sum in *. lia.
  - intros k bk' L' fa' ss' ls' Hk Hl Hf. apply (HS (S k) bk' L' fa' ss' ls'); [exact Hk|exact Hl|]. replace (i + S k)%nat with (S i + k)%nat by lia. exact Hf.
  - exists (ss :: sss). eapply banks_fit_cons; [exact Hfa| |exact Hsss]. constructor; [exact Hls| | |].
    + specialize (HR 0%nat bk a0 eq_refl). rewrite Nat.add_0_r in HR. specialize (HR Hfa). cbn in HR. rewrite Nat.add_0_r in HR. exact HR.
    + unfold table_in_base in T1. destruct i as [|[|[|i]]]; cbn in Hfa; [| | |destruct i; discriminate]; injection Hfa as <-; lia.
    + apply (HS 0%nat bk L a0 ss ls); try reflexivity; [rewrite Nat.add_0_r; exact Hfa|exact Hls].
Qed.

(** ** What the converter gives. *)
Lemma song_bytes_free b voices tpb mt tf opt s : length voices = 8%nat -> Forall (Forall (fun x => midi_valid (fst x))) voices ->
  song_from_midi b voices tpb mt tf opt = Ok s ->
  (Forall (Forall pc_bytes) (tracks s) /\ forall part, nth_error (parts s) 0 = Some part -> (length part <= 8)%nat) /\ (opt = false -> Forall loop_free (tracks s)).
Proof.
  intros H8 HV H. unfold song_from_midi in H. inv_bind H. cbv zeta in H.
  destruct (converted_in _ _ _ _ _ _ HV Ha) as [HI Hlen].
  assert (Hpart : forall part, nth_error [seq 0 (length a)] 0 = Some part -> (length part <= 8)%nat) by (intros part E; injection E as <-; rewrite seq_length; eapply Nat.le_trans; [exact Hlen|]; apply Nat.eq_le_incl; exact H8).
  assert (Hin : forall pc, inb pc -> pc_bytes pc).
  { intros pc [(I1 & I2 & I3 & I4) Hn]. repeat split; try assumption. unfold cmd_bytes. destruct (cmd pc); try exact I4. destruct I4 as [_ I4]. exact I4. }
  destruct opt.
  - inv_bind H. injection H as <-. cbn [tracks parts]. split; [|discriminate]. split; [|exact Hpart]. pose proof (optimize_from _ _ _ Ha0) as Hfrom.
    eapply Forall_impl; [|exact Hfrom]. intros tr Htr. eapply Forall_impl; [|exact Htr]. intros pc [(tr0 & T1 & T2)|(t & k & Hk & ->)].
    + rewrite Forall_forall in HI. specialize (HI tr0 T1). rewrite Forall_forall in HI. apply Hin, HI, T2.
    + unfold pc_bytes. cbn. unfold u8. repeat split; lia.
  - injection H as <-. cbn [tracks parts]. split; [split; [|exact Hpart]|intros _].
    + eapply Forall_impl; [|exact HI]. intros tr Htr. eapply Forall_impl; [exact Hin|exact Htr].
    + eapply Forall_impl; [|exact HI]. intros tr Htr. apply loop_free_in. exact Htr.
Qed.
Lemma song_bytes b voices tpb mt tf opt s : length voices = 8%nat -> Forall (Forall (fun x => midi_valid (fst x))) voices ->
  song_from_midi b voices tpb mt tf opt = Ok s ->
  (Forall (Forall pc_bytes) (tracks s) /\ forall part, nth_error (parts s) 0 = Some part -> (length part <= 8)%nat).
Proof.
  intros H8 HV H. destruct (song_bytes_free b voices tpb mt tf opt s H8 HV H) as [K _]. exact K.
Qed.
Lemma midi_bytes b w order opt p tf s cbs complete : midi_file w p = (cbs, complete) -> Forall callback_typed cbs -> (forall k, permutes (order k)) ->
  file_ok (tracks_of cbs) -> Forall (Forall midi_valid) (tracks_of cbs) -> song_from_midi_file b w order opt p tf = Ok s ->
  (Forall (Forall pc_bytes) (tracks s) /\ forall part, nth_error (parts s) 0 = Some part -> (length part <= 8)%nat) /\ (opt = false -> Forall loop_free (tracks s)).
Proof.
  intros Hw Hty Ho Hfo Hmv H. unfold song_from_midi_file in H. rewrite Hw in H. inv_bind H.
  destruct (read_valid b cbs complete order a Hty Ho Hfo Hmv Ha) as [H8 HV]. eapply song_bytes_free; eassumption.
Qed.

Lemma list_bytes : forall vs l, Forall2 is_byte vs l -> Forall u8 l.
Proof. induction 1 as [|v x vs l [_ H] _ IH]; constructor; assumption. Qed.
Lemma is_command_bytes v c : SpecJson.is_command v c -> cmd_bytes c.
Proof.
  intros H. assert (K : forall name l, spelled c = Some (name, l) -> Forall u8 l -> cmd_bytes c).
  { intros name l E HF. destruct c; cbn [spelled cmd_bytes command_ok] in *; try discriminate; injection E as <- <-;
      repeat match goal with X : Forall _ (_ :: _) |- _ => inversion X; clear X; subst end; repeat split; auto; try (match goal with X : u8 ?x |- _ => apply X end); try (unfold u8 in *; lia). }
  inversion H as [name c' E|name c' E|name c' w p E [_ Hb]|name c' w p q l E (vs & _ & Hl)|w w' t n _ [_ Hn]]; subst.
  - apply (K _ _ E). constructor.
  - apply (K _ _ E). constructor.
  - apply (K _ _ E). constructor; [exact Hb|constructor].
  - apply (K _ _ E). apply (list_bytes _ _ Hl).
  - exact Hn.
Qed.
Lemma is_option_ok v o : is_option v o -> option_ok o.
Proof. destruct o; cbn; [intros [_ H]; exact H|trivial]. Qed.
Lemma option_key_ok fs k o : option_key fs k o -> option_ok o.
Proof. intros [[_ ->]|(v & _ & H)]; [exact I|exact (is_option_ok _ _ H)]. Qed.
Lemma is_pcmd_bytes v c : is_pcmd v c -> pc_bytes c.
Proof.
  intros H. inversion H as [fs d ve su w c' H1 H2 H3 _ H5|v1 v2 v3 v4 d ve su c' H1 H2 H3 H4]; subst; unfold pc_bytes; cbn [duration velocity sustain cmd].
  - split; [|split; [|split]]; [exact (option_key_ok _ _ _ H1)|exact (option_key_ok _ _ _ H2)|exact (option_key_ok _ _ _ H3)|exact (is_command_bytes _ _ H5)].
  - split; [|split; [|split]]; [exact (is_option_ok _ _ H1)|exact (is_option_ok _ _ H2)|exact (is_option_ok _ _ H3)|exact (is_command_bytes _ _ H4)].
Qed.
Lemma listed {A} (R : json -> A -> Prop) (P : A -> Prop) : (forall v x, R v x -> P x) -> forall v l, is_list R v l -> Forall P l.
Proof. intros H v l (vs & _ & HF). induction HF; constructor; eauto. Qed.
Lemma is_song_bytes v s : is_song v s -> Forall (Forall pc_bytes) (tracks s).
Proof.
  assert (Kt : forall w tr, is_track w tr -> Forall pc_bytes tr) by (intros w tr H; inversion H; subst; eapply listed; try eassumption; exact is_pcmd_bytes).
  intros H. inversion H; subst; cbn [tracks]; eapply listed; try eassumption; exact Kt.
Qed.
Lemma mid_dec p : mid_file p \/ ~ mid_file p.
Proof.
  destruct (extension p) as [e|] eqn:E; [|right; intros H; apply extension_mid in H; congruence].
  destruct (String.string_dec e "mid") as [->|Hn]; [left; apply extension_mid; exact E|right; intros H; apply extension_mid in H; congruence].
Qed.
Lemma slot_gives b t f order opt sd : (forall i, permutes (order i)) -> readable_slot t f sd -> slot_bytes b (converter b (world_of t f) order opt) sd.
Proof.
  intros Ho Hs p s Hp Hc. destruct (Hs p Hp) as [HM HJ]. destruct (converter_choice b (world_of t f) order opt p (Manifest.tempo_factor sd)) as [C1 C2].
  destruct (mid_dec p) as [Hm|Hm].
  - rewrite (C1 Hm) in Hc. destruct (HM Hm) as (content & cbs & complete & E1 & E2 & Hty & Hfo & Hmv).
    apply (midi_bytes _ _ _ _ _ _ _ cbs complete) in Hc; try assumption; [apply Hc|]. cbn [world_of midi_file]. rewrite E1. exact E2.
  - rewrite (C2 Hm) in Hc. apply reads_iff in Hc. destruct Hc as (v & Ev & Hv). split; [apply (is_song_bytes _ _ Hv)|]. intros part. apply (HJ Hm s part).
    cbn [world_of json_file] in Ev. destruct (f p) as [content|] eqn:Ef; [|discriminate]. exists content, v. auto.
Qed.

(** ** A successful command. *)
Lemma asked_room t f c m : asked t f c m -> length m = 3%nat /\ room_from 0 0 m.
Proof.
  intros [H _]. unfold all_slots in H. cbn in H. destruct m as [|b0 [|b1 [|b2 [|b3 m]]]]; try discriminate. cbn [map] in H. injection H as H0 H1 H2. split; [reflexivity|].
  intros k bk fa Hk Hf. destruct k as [|[|[|k]]]; [| | |destruct k; discriminate]; injection Hk as <-; injection Hf as <-; unfold count_songs; cbn [firstn map list_sum fold_right]; rewrite ?H0, ?H1, ?H2; cbn; lia.
Qed.
Lemma same_length {A B} (R : A -> B -> Prop) l l' : Forall2 R l l' -> length l = length l'.
Proof. induction 1; cbn; congruence. Qed.
Lemma addresses_three c al : addresses c al -> length al = 3%nat.
Proof. unfold addresses. destruct (address_option c) as [l|]; [intros [H HF]; rewrite <- (same_length _ _ _ HF); exact H|intros ->; reflexivity]. Qed.
Lemma success_fits b t order o fl c rom f f' r m Ls : (forall i, permutes (order i)) -> builds_rom c rom -> f rom = Some r -> asked t f c m ->
  addresses c (map lo_addr Ls) -> Forall table_in_base Ls -> Forall (fun bk => Forall (readable_slot t f) (songs bk)) m ->
  moved_tracks_ok b (converter b (world_of t f) order (negb (skip_optimization fl))) m Ls -> run b t order o fl c f = (Ok tt, f') ->
  exists sss, banks_fit b (converter b (world_of t f) order (negb (skip_optimization fl))) 0 0 m Ls sss.
Proof.
  intros Ho Hc Hr Hm Hal HT HR HS H. assert (Hlen : length Ls = length m) by (rewrite (proj1 (asked_room _ _ _ _ Hm)), <- (map_length lo_addr); apply (addresses_three _ _ Hal)).
  destruct (command_rom _ _ _ _ _ _ _ _ _ _ _ _ Hc Hr Hal Hm H) as (m' & r' & Em & _ & Hw).
  unfold rom_write in Hw. destruct (os_open o rom); [|discriminate]. destruct (write_banks _ _ m' 0 0 r _ _) as [r1| | |] eqn:Ew; try discriminate.
  assert (L3 : length m' = length m) by (apply (f_equal (@length _)) in Em; rewrite !map_length in Em; congruence).
  assert (Hback : forall k bk, nth_error m' k = Some bk -> exists bk0, nth_error m k = Some bk0 /\ songs bk0 = songs bk).
  { intros k bk Hk. apply (map_nth_error songs) in Hk. rewrite <- Em in Hk. destruct (nth_error m k) as [bk0|] eqn:E.
    - apply (map_nth_error songs) in E. exists bk0. split; [reflexivity|congruence].
    - apply nth_error_None in E. rewrite (proj2 (nth_error_None (map songs m) k)) in Hk by (rewrite map_length; lia). discriminate. }
  destruct (asked_room _ _ _ _ Hm) as [_ Hroom].
  edestruct (banks_loaded _ _ _ _ _ _ _ _ _ Ls Ew) as (sss & Hsss).
  - apply Forall_forall. intros bk Hbk. apply In_nth_error in Hbk. destruct Hbk as (k & Hk). destruct (Hback k bk Hk) as (bk0 & H0 & <-). apply nth_error_In in H0. rewrite Forall_forall in HR.
    eapply Forall_impl; [|exact (HR bk0 H0)]. intros sd. apply slot_gives. exact Ho.
  - congruence.
  - exact HT.
  - intros k bk fa Hk Hf. destruct (Hback k bk Hk) as (bk0 & H0 & E0). specialize (Hroom k bk0 fa H0 Hf). rewrite E0 in Hroom. rewrite (count_songs_map _ _ k Em) in Hroom. exact Hroom.
  - intros k bk L fa ss ls Hk HL Hf Hld. destruct (Hback k bk Hk) as (bk0 & H0 & E0). rewrite <- E0 in Hld. apply (HS k bk0 L fa ss ls H0 HL Hf Hld).
  - exists sss. apply (fit_songs _ _ _ _ _ _ _ Hsss). symmetry. exact Em.
Qed.

Lemma success_heard b t order o fl c rom f f' r m Ls n : (forall i, permutes (order i)) ->
  builds_rom c rom -> f rom = Some r -> is_image r -> asked t f c m ->
  addresses c (map lo_addr Ls) -> Forall (layout_ok r) Ls -> ForallOrdPairs independent Ls -> Forall table_in_base Ls ->
  Forall (fun bk => Forall (readable_slot t f) (songs bk)) m ->
  moved_tracks_ok b (converter b (world_of t f) order (negb (skip_optimization fl))) m Ls ->
  os_rom o = Rom.Wrote n -> (length r <= n)%nat -> run b t order o fl c f = (Ok tt, f') ->
  exists r', f' rom = Some r' /\ length r' = length r /\
  forall k bk L j sd, nth_error m k = Some bk -> nth_error Ls k = Some L -> zero_free L -> nth_error (songs bk) j = Some sd ->
  lo_in r' L /\ exists a, holds (aram r' (lo_blocks L)) (0xd000 + 2 * Z.of_nat (count_songs (firstn k m) + j)) a /\
    (if loops sd then starts_again (aram r' (lo_blocks L)) a else stops (aram r' (lo_blocks L)) a) /\
    (forall p cbs, Manifest.input sd = Some p -> mid_file p -> good_midi b (world_of t f) order (negb (skip_optimization fl)) p (Manifest.tempo_factor sd) cbs ->
       sounds_like (aram r' (lo_blocks L)) a cbs) /\
    (Manifest.input sd = None -> song_plays (aram r' (lo_blocks L)) a (repeat [] 8)) /\
    (forall p s part, Manifest.input sd = Some p -> ~ mid_file p -> holds_song t f p s -> song_parts s part ->
       Forall (fun i => forall tr, nth_error (tracks s) i = Some tr -> loop_free tr /\ SpecNspc.well_formed tr) part ->
       exists ess, song_plays (aram r' (lo_blocks L)) a ess /\ plays_part (plays_exactly s) part ess).
Proof.
  intros Ho Hc Hr Hi Hm Hal HL HI HT HR HS Hos Hn H. destruct (success_fits _ _ _ _ _ _ _ _ _ _ _ _ Ho Hc Hr Hm Hal HT HR HS H) as (sss & Hfit).
  eapply command_heard; eassumption.
Qed.

(** ** Without the optimisation there are no calls. *)
Lemma flat_stays b t f order m Ls : (forall i, permutes (order i)) ->
  Forall (fun bk => Forall (readable_slot t f) (songs bk)) m ->
  (forall bk sd p, In bk m -> In sd (songs bk) -> Manifest.input sd = Some p -> mid_file p) ->
  short_tracks b (converter b (world_of t f) order false) m Ls -> moved_tracks_ok b (converter b (world_of t f) order false) m Ls.
Proof.
  intros Ho HR HM Hsh k bk L fa ss ls Hk HL _ Hld. apply songs_stay_noloops. specialize (Hsh k bk L ss ls Hk HL Hld).
  apply nth_error_In in Hk. rewrite Forall_forall in HR. specialize (HR bk Hk). specialize (HM bk). revert HR HM Hsh. clear HL.
  assert (HM' : (forall sd p, In bk m -> In sd (songs bk) -> Manifest.input sd = Some p -> mid_file p) -> forall sd p, In sd (songs bk) -> Manifest.input sd = Some p -> mid_file p) by eauto.
  intros HR HM Hsh. specialize (HM' HM). clear HM. revert HR HM' Hsh. induction Hld as [|sd s l sds ss ls Hs (He1 & He2 & He3) _ IH]; intros HR HM Hsh; [constructor|].
  inversion HR as [|? ? R1 R2]; subst. inversion Hsh as [|? ? S1 S2]; subst. constructor; [|apply IH; [exact R2|intros sd' p Hin; apply HM; right; exact Hin|exact S2]].
  cbn [snd] in *.
  assert (HF : Forall loop_free (tracks s)).
  { destruct (Manifest.input sd) as [p|] eqn:Ep.
    - assert (Hmid : mid_file p) by (apply (HM sd p); [left; reflexivity|exact Ep]). destruct (R1 p Ep) as [HMi _]. destruct (HMi Hmid) as (content & cbs & complete & E1 & E2 & Hty & Hfo & Hmv).
      rewrite (proj1 (converter_choice b (world_of t f) order false p (Manifest.tempo_factor sd)) Hmid) in Hs.
      apply (midi_bytes _ _ _ _ _ _ _ cbs complete) in Hs; try assumption; [apply Hs; reflexivity|]. cbn [world_of midi_file]. rewrite E1. exact E2.
    - apply ConsoleProofs.empty_song in Hs. subst s. repeat constructor. }
  apply Forall_forall. intros d Hd. rewrite Forall_forall in S1. split; [|apply S1; exact Hd]. apply In_nth_error in Hd. destruct Hd as (i & Ei). eapply written_no_refs; [exact HF|apply (proj2 He1 i); exact Ei].
Qed.
