(** ShiftFile.v: files rescored (C68, C69). *)
From Coq Require Import ZArith List Bool Lia ZifyBool ZifyNat Permutation Sorted.
From Verif Require Import Base ProofLib F32 Messages Command Track SeqTree Song Paths Manifest Midi Json Cli SpecBuild SpecMidi SpecNotes SpecVoices SpecVoice SpecFile SpecHeard SpecSame SpecShift
  MergeProofs LoopProofs VoiceProofs ReadProofs ReadProofs2 TotalProofs InstrProofs FileProofs EndProofs FileExamples SameProofs ShiftProofs ShiftTrack OptShift BuildProofs.
Ltac Zify.zify_post_hook ::= idtac.
Open Scope Z_scope.
Open Scope list_scope.

Lemma music_times d k t1 t2 x : music (timed 0 t2) = map (moved d k) (music (timed 0 t1)) -> In x (timed 0 t1) -> matters x = true ->
  exists y, In y (timed 0 t2) /\ snd y = k * snd x.
Proof.
  intros E Hx Hm. assert (Hin : In (moved d k (undated x)) (map (moved d k) (music (timed 0 t1)))).
  { apply in_map. unfold music. apply in_map. apply filter_In. split; assumption. }
  rewrite <- E in Hin. apply in_music in Hin. destruct Hin as (y & Hy & _ & Ey). exists y. split; [exact Hy|].
  apply (f_equal snd) in Ey. cbn [moved undated snd] in Ey. congruence.
Qed.
Lemma sort_in c ts l x : stable_sort_of (file_order ts c) l -> In x l -> In x (flat_map (timed 0) ts).
Proof.
  intros (Hp & _) Hx. assert (Hx' : In x (file_order ts c)) by (eapply Permutation_in; [symmetry; exact Hp|exact Hx]). apply filter_In in Hx'. apply Hx'.
Qed.
(** What is asked of the events of the first file. *)
Definition usable (d k T : Z) (cbs : list callback) : Prop :=
  forall t x, In t (tracks_of cbs) -> In x (timed 0 t) -> matters x = true -> melodic d x /\ kept d k T x.
Definition hmoved (d k T : Z) (h1 h2 : handler) : Prop :=
  Forall2 (vmoved d k T) (h_voices h1) (h_voices h2) /\ h_ticks_per_beat h2 = k * h_ticks_per_beat h1 /\ h_max_time h2 = k * h_max_time h1 /\
  0 <= h_max_time h1 <= T.
Lemma read_moved b d k T cbs1 cbs2 o1 o2 : 1 <= k -> accepted cbs1 -> accepted cbs2 -> rescored d k cbs1 cbs2 -> usable d k T cbs1 ->
  (forall t, file_end (tracks_of cbs1) t -> 0 <= t <= T) ->
  (forall k, permutes (o1 k)) -> (forall k, permutes (o2 k)) ->
  orel (hmoved d k T) (midi_read b cbs1 true o1) (midi_read b cbs2 true o2).
Proof.
  intros Hk (F1 & T1 & K1) (F2 & T2 & K2) (Hb & He & Hm) Hu Hend P1 P2. unfold midi_read.
  destruct (callbacks_ok cbs1 0 F1) as [tpb1 E1]. destruct (callbacks_ok cbs2 0 F2) as [tpb2 E2]. rewrite E1, E2. cbn [bind r_tracks r_tpb].
  pose proof (callbacks_ticks _ _ _ E1) as B1. pose proof (callbacks_ticks _ _ _ E2) as B2. cbn [r_tpb] in B1, B2.
  change (tpb1 = beat_ticks cbs1) in B1. change (tpb2 = beat_ticks cbs2) in B2. assert (Etpb : tpb2 = k * tpb1) by congruence. clear E1 E2 B1 B2.
  destruct (merge_ok b _ K1) as (chs1 & C1 & L1 & S1). destruct (merge_ok b _ K2) as (chs2 & C2 & L2 & S2). rewrite C1, C2. cbn [bind].
  pose proof (channels_ok_read _ _ _ (tracks_typed _ T1) C1) as O1. pose proof (channels_ok_read _ _ _ (tracks_typed _ T2) C2) as O2.
  assert (Hflat : forall c, music (file_order (tracks_of cbs2) c) = map (moved d k) (music (file_order (tracks_of cbs1) c))).
  { intros c. rewrite !music_file. clear -Hm. induction Hm as [|t1 t2 ts1 ts2 E H IH]; [reflexivity|]. cbn [flat_map]. rewrite !filter_app, map_app, IH, E. f_equal.
    rewrite filter_map_swap. f_equal. apply filter_ext. intros [m t]. unfold moved. cbn [fst snd]. apply transpose_for. }
  assert (Emus : map music chs2 = map (map (moved d k)) (map music chs1)).
  { rewrite map_map. transitivity (map (fun l => map (moved d k) (music l)) chs1); [|reflexivity].
    assert (HL : length chs2 = length chs1) by congruence. rewrite L1 in HL.
    assert (Hc : forall c, (c < 16)%nat -> music (nth c chs2 []) = map (moved d k) (music (nth c chs1 []))).
    { intros c Hc. pose proof (music_sort _ _ (S1 c)) as A1. pose proof (music_sort _ _ (S2 c)) as A2. rewrite Hflat in A2.
      apply (moved_sort d k _ _ Hk) in A1. rewrite (stable_sort_is _ _ A1), (stable_sort_is _ _ A2). reflexivity. }
    clear -HL L1 Hc. rewrite <- L1 in Hc. assert (HL' : length chs2 = length chs1) by congruence. clear HL L1. revert chs2 HL' Hc.
    induction chs1 as [|a chs1 IH]; intros [|b chs2] HL Hc; try discriminate; [reflexivity|]. cbn [map]. f_equal.
    - apply (Hc 0%nat). cbn. lia.
    - apply IH; [now injection HL|]. intros c Hc'. apply (Hc (S c)). cbn. lia. }
  pose proof (intervals_moved d k b chs1 Hk chs2 0 0 0 Emus) as Hiv.
  destruct (all_intervals b chs1 0 0) as [[iv1 mx1]| | |] eqn:I1; destruct (all_intervals b chs2 0 0) as [[iv2 mx2]| | |] eqn:I2; cbn [orel bind fst snd] in *; try contradiction; auto.
  subst iv2.
  assert (End1 : file_end (tracks_of cbs1) mx1) by exact (intervals_file_end b _ chs1 mx1 iv1 L1 S1 K1 I1).
  assert (Emx : mx2 = k * mx1).
  { apply (file_end_unique (tracks_of cbs2)); [exact (intervals_file_end b _ chs2 mx2 _ L2 S2 K2 I2)|apply He, End1]. }
  change (repeat (@nil interval) 8) with (map (map (ivl k)) (repeat (@nil interval) 8)) at 2. rewrite base_ivl by exact Hk.
  destruct (find_base_voices iv1 (repeat [] 8)) as [base|] eqn:Eb; [|reflexivity].
  assert (Hbo : base_ok base).
  { eapply base_ok_found; [|exact Eb]. apply all_intervals_length in I1. cbn [fst] in I1. rewrite I1. exact L1. }
  apply orel_bind with (R := Forall2 (vmoved d k T)).
  - apply voices_moved; try assumption. apply Forall_forall. intros ch Hch. apply Forall_forall. intros x Hx Mx.
    destruct (In_nth chs1 ch [] Hch) as (c & Hc & <-). apply (sort_in c _ _ _ (S1 c)) in Hx. apply in_flat_map in Hx. destruct Hx as (t & Ht & Hx). exact (Hu t x Ht Hx Mx).
  - intros v1 v2 Hv. cbn [orel]. unfold hmoved. cbn [h_voices h_ticks_per_beat h_max_time]. auto.
Qed.
Lemma song_moved b d k T w1 w2 o1 o2 opt p1 p2 tf cbs1 cbs2 :
  midi_file w1 p1 = (cbs1, true) -> midi_file w2 p2 = (cbs2, true) -> accepted cbs1 -> accepted cbs2 ->
  (forall k, permutes (o1 k)) -> (forall k, permutes (o2 k)) -> 1 <= k -> rescored d k cbs1 cbs2 -> usable d k T cbs1 ->
  (forall t, file_end (tracks_of cbs1) t -> 0 <= t <= T) -> (scalable b k (beat_ticks cbs1) T) -> (k = 1 \/ 0 <= beat_ticks cbs1) ->
  orel (fun s1 s2 => parts s2 = parts s1 /\ tracks s2 = map (map (higher d)) (tracks s1))
    (song_from_midi_file b w1 o1 opt p1 tf) (song_from_midi_file b w2 o2 opt p2 tf).
Proof.
  intros W1 W2 A1 A2 P1 P2 Hk Hr Hu He Hs Hp. unfold song_from_midi_file. rewrite W1, W2.
  pose proof (read_moved b d k T cbs1 cbs2 o1 o2 Hk A1 A2 Hr Hu He P1 P2) as Hread.
  destruct (midi_read b cbs1 true o1) as [h1| | |] eqn:R1; destruct (midi_read b cbs2 true o2) as [h2| | |]; cbn [orel bind] in *; try contradiction; auto.
  destruct Hread as (Hv & Ht & Hx & Hmx).
  assert (Etpb : h_ticks_per_beat h1 = beat_ticks cbs1).
  { unfold midi_read in R1. inv_bind R1. pose proof (callbacks_ticks _ _ _ Ha) as B. inv_bind R1. inv_bind R1.
    destruct (find_base_voices _ _); [|discriminate]. inv_bind R1. injection R1 as <-. exact B. }
  unfold song_from_midi. rewrite Ht, Hx, Etpb. eapply orel_bind; [apply (convert_scaled b d k T (beat_ticks cbs1) tf (h_max_time h1) _ _ Hs Hmx Hp Hv)|].
  intros trs ? ->. rewrite map_length. destruct opt.
  - eapply orel_bind; [apply (optimize_map (higher d)), higher_renaming|]. intros trs' ? ->. split; reflexivity.
  - split; reflexivity.
Qed.

(** ** Finer files *)
Lemma higher_0 c : higher 0 c = c.
Proof. destruct c as [d1 v1 s1 []]; unfold higher; cbn [duration velocity sustain cmd]; rewrite ?Z.add_0_r; reflexivity. Qed.
Lemma end_channel ts t : file_end ts t -> file_ok ts -> 0 <= t /\ (t = 0 \/ exists x, In x (flat_map (timed 0) ts) /\ snd x = t).
Proof.
  intros [_ [H|[_ ->]]] K; [|split; [lia|now left]]. unfold channel_times in H. apply in_map_iff in H. destruct H as (x & Ex & Hx). apply filter_In in Hx. destruct Hx as [Hx _].
  split; [|right; eauto]. apply in_flat_map in Hx. destruct Hx as (l & Hl & Hx). unfold file_ok in K. rewrite Forall_forall in K. specialize (K l Hl). unfold track_ok in K. rewrite Forall_forall in K.
  specialize (K x Hx). lia.
Qed.
Lemma forall2_in {A B} (R : A -> B -> Prop) l1 l2 x : Forall2 R l1 l2 -> In x l1 -> exists y, In y l2 /\ R x y.
Proof. induction 1 as [|a b l1 l2 Hab H IH]; intros Hx; [destruct Hx|]. destruct Hx as [->|Hx]; [exists b; split; [now left|exact Hab]|]. destruct (IH Hx) as (y & Hy & Hr). exists y. split; [now right|exact Hr]. Qed.
Lemma times_ok cbs t x : accepted cbs -> In t (tracks_of cbs) -> In x (timed 0 t) -> 0 <= snd x < 2 ^ 32.
Proof. intros (_ & _ & K) Ht Hx. unfold file_ok in K. rewrite Forall_forall in K. specialize (K t Ht). unfold track_ok in K. rewrite Forall_forall in K. apply (K x Hx). Qed.
Lemma finer_song w1 w2 o1 o2 opt p1 p2 tf cbs1 cbs2 k :
  midi_file w1 p1 = (cbs1, true) -> midi_file w2 p2 = (cbs2, true) -> accepted cbs1 -> accepted cbs2 ->
  (forall k, permutes (o1 k)) -> (forall k, permutes (o2 k)) ->
  1 <= k -> rescored 0 k cbs1 cbs2 -> (24 | beat_ticks cbs1) -> 0 < beat_ticks cbs1 -> beat_ticks cbs2 < 2 ^ 16 ->
  no_portamento cbs1 -> (forall x, In x (flat_map (timed 0) (tracks_of cbs2)) -> snd x < 2 ^ 23) ->
  song_from_midi_file Debug w1 o1 opt p1 tf = song_from_midi_file Debug w2 o2 opt p2 tf.
Proof.
  intros W1 W2 A1 A2 P1 P2 Hk Hr H24 Hp Hb Hn Hlim. set (T := (2 ^ 23 - 1) / k).
  assert (HT : forall t, k * t < 2 ^ 23 -> t <= T). { intros t Ht. unfold T. apply Z.div_le_lower_bound; lia. }
  assert (HT2 : k * T < 2 ^ 23). { pose proof (Z.mul_div_le (2 ^ 23 - 1) k ltac:(lia)). fold T in H. lia. }
  destruct Hr as (Eb & Ee & Em).
  assert (Hu : usable 0 k T cbs1).
  { intros t x Ht Hx Mx. split; [now left|]. split.
    - split; [now left|right]. unfold no_portamento in Hn. rewrite Forall_forall in Hn. specialize (Hn t Ht). rewrite Forall_forall in Hn. apply Hn. destruct x as [m u]. eapply in_timed; exact Hx.
    - pose proof (times_ok cbs1 t x A1 Ht Hx). split; [lia|]. apply HT. destruct (forall2_in _ _ _ _ Em Ht) as (t2 & Ht2 & E2).
      destruct (music_times 0 k t t2 x E2 Hx Mx) as (y & Hy & Ey). rewrite <- Ey. apply Hlim. apply in_flat_map. exists t2. split; assumption. }
  pose proof (song_moved Debug 0 k T w1 w2 o1 o2 opt p1 p2 tf cbs1 cbs2 W1 W2 A1 A2 P1 P2 Hk (conj Eb (conj Ee Em)) Hu) as H.
  assert (Hend : forall t, file_end (tracks_of cbs1) t -> 0 <= t <= T).
  { intros t Ht. destruct (end_channel _ _ Ht (proj2 (proj2 A1))) as [H0 _]. split; [exact H0|]. apply HT. specialize (Ee t Ht).
    destruct (end_channel _ _ Ee (proj2 (proj2 A2))) as [_ [E|(y & Hy & E)]]; [rewrite E; reflexivity|]. rewrite <- E. apply Hlim, Hy. }
  specialize (H Hend).
  assert (Hs : scalable Debug k (beat_ticks cbs1) T) by (right; repeat split; try assumption; rewrite <- ?Eb; change (2 ^ 16) with 65536 in Hb; lia).
  specialize (H Hs ltac:(right; lia)). apply orel_eq.
  assert (Hm : forall trs : list track, map (map (higher 0)) trs = trs).
  { induction trs as [|tr trs IH]; [reflexivity|]. cbn [map]. rewrite IH. f_equal. induction tr as [|c tr IHt]; [reflexivity|]. cbn [map]. now rewrite higher_0, IHt. }
  destruct (song_from_midi_file Debug w1 o1 opt p1 tf) as [s1| | |], (song_from_midi_file Debug w2 o2 opt p2 tf) as [s2| | |]; cbn [orel] in *; try contradiction; try assumption.
  destruct s1 as [ps1 ts1], s2 as [ps2 ts2]. cbn [parts tracks] in H. destruct H as [-> ->]. now rewrite Hm.
Qed.
Lemma debug_both b w o opt p tf s : song_from_midi_file Debug w o opt p tf = Ok s -> song_from_midi_file b w o opt p tf = Ok s.
Proof. intros H. destruct b; [exact H|]. destruct (ag_song_from_midi_file w o opt p tf) as [E|E]; congruence. Qed.
(** ** Transposed files *)
Lemma transposed_song b w1 w2 o1 o2 opt p1 p2 tf cbs1 cbs2 d :
  midi_file w1 p1 = (cbs1, true) -> midi_file w2 p2 = (cbs2, true) -> accepted cbs1 -> accepted cbs2 ->
  (forall k, permutes (o1 k)) -> (forall k, permutes (o2 k)) ->
  rescored d 1 cbs1 cbs2 -> no_drums cbs1 -> keys_valid cbs1 -> keys_valid cbs2 ->
  orel (fun s1 s2 => parts s2 = parts s1 /\ tracks s2 = map (map (higher d)) (tracks s1))
    (song_from_midi_file b w1 o1 opt p1 tf) (song_from_midi_file b w2 o2 opt p2 tf).
Proof.
  intros W1 W2 A1 A2 P1 P2 Hr Hd V1 V2. apply (song_moved b d 1 (2 ^ 32) w1 w2 o1 o2 opt p1 p2 tf cbs1 cbs2); try assumption; try (now left); try lia.
  - destruct Hr as (_ & _ & Em). intros t x Ht Hx Mx. pose proof (times_ok cbs1 t x A1 Ht Hx) as Htx. split; [right|split; [split; [right|now left]|lia]].
    + unfold no_drums in Hd. rewrite Forall_forall in Hd. specialize (Hd t Ht). rewrite Forall_forall in Hd. apply Hd. destruct x as [m u]. eapply in_timed; exact Hx.
    + intros n Hn. unfold keys_valid in V1, V2. rewrite Forall_forall in V1, V2.
      assert (H1 : 0 <= n < 128). { specialize (V1 t Ht). rewrite Forall_forall in V1. apply (V1 (fst x)); [|exact Hn]. destruct x as [m u]. eapply in_timed; exact Hx. }
      destruct (forall2_in _ _ _ _ Em Ht) as (t2 & Ht2 & E2).
      assert (Hin : In (moved d 1 (undated x)) (map (moved d 1) (music (timed 0 t)))).
      { apply in_map. unfold music. apply in_map. apply filter_In. split; assumption. }
      rewrite <- E2 in Hin. apply in_music in Hin. destruct Hin as ([m2 u2] & Hy & _ & Ey). specialize (V2 t2 Ht2). rewrite Forall_forall in V2.
      apply in_timed in Hy. specialize (V2 m2 Hy (n + d)). assert (H2 : 0 <= n + d < 128); [|lia]. apply V2. apply (f_equal fst) in Ey. cbn [moved undated fst] in Ey. clear -Ey Hn.
      destruct x as [[|? []| |] u]; try discriminate; cbn [fst key_of] in Hn; injection Hn as ->; cbn [fst bare transpose] in Ey;
        destruct m2 as [|? []| |]; cbn [bare] in Ey; try discriminate; cbn [key_of]; congruence.
  - intros t Ht. destruct (end_channel _ _ Ht (proj2 (proj2 A1))) as [H0 [E|(x & Hx & E)]]; [lia|]. apply in_flat_map in Hx. destruct Hx as (l & Hl & Hx).
    pose proof (times_ok cbs1 l x A1 Hl Hx). lia.
Qed.
Lemma finer_song_both (w1 w2 : world) (order1 order2 : nat -> notes -> notes) (opt : bool) (p1 p2 : path) (tf : f32) (cbs1 cbs2 : list callback) (k : Z) :
  midi_file w1 p1 = (cbs1, true) -> midi_file w2 p2 = (cbs2, true) -> accepted cbs1 -> accepted cbs2 ->
  (forall i, permutes (order1 i)) -> (forall i, permutes (order2 i)) ->
  1 <= k -> rescored 0 k cbs1 cbs2 -> (24 | beat_ticks cbs1) -> 0 < beat_ticks cbs1 -> beat_ticks cbs2 < 2 ^ 16 ->
  no_portamento cbs1 -> (forall x, In x (flat_map (timed 0) (tracks_of cbs2)) -> snd x < 2 ^ 23) ->
  song_from_midi_file Debug w1 order1 opt p1 tf = song_from_midi_file Debug w2 order2 opt p2 tf /\
  forall (b1 b2 : build) (s : song), song_from_midi_file Debug w1 order1 opt p1 tf = Ok s ->
    song_from_midi_file b1 w1 order1 opt p1 tf = Ok s /\ song_from_midi_file b2 w2 order2 opt p2 tf = Ok s.
Proof.
  intros W1 W2 A1 A2 P1 P2 Hk Hr H24 Hp Hb Hn Hl.
  pose proof (finer_song w1 w2 order1 order2 opt p1 p2 tf cbs1 cbs2 k W1 W2 A1 A2 P1 P2 Hk Hr H24 Hp Hb Hn Hl) as E.
  split; [exact E|]. intros b1 b2 s Hs. split; apply debug_both; congruence.
Qed.
Lemma transposed_cases (b : build) (w1 w2 : world) (order1 order2 : nat -> notes -> notes) (opt : bool) (p1 p2 : path) (tf : f32) (cbs1 cbs2 : list callback) (d : Z) :
  midi_file w1 p1 = (cbs1, true) -> midi_file w2 p2 = (cbs2, true) -> accepted cbs1 -> accepted cbs2 ->
  (forall i, permutes (order1 i)) -> (forall i, permutes (order2 i)) ->
  rescored d 1 cbs1 cbs2 -> no_drums cbs1 -> keys_valid cbs1 -> keys_valid cbs2 ->
  match song_from_midi_file b w1 order1 opt p1 tf with
  | Ok s1 => exists s2, song_from_midi_file b w2 order2 opt p2 tf = Ok s2 /\ parts s2 = parts s1 /\ tracks s2 = map (map (higher d)) (tracks s1)
  | Err e => song_from_midi_file b w2 order2 opt p2 tf = Err e
  | Panic r => song_from_midi_file b w2 order2 opt p2 tf = Panic r
  | Diverge => song_from_midi_file b w2 order2 opt p2 tf = Diverge
  end.
Proof.
  intros W1 W2 A1 A2 P1 P2 Hr Hd V1 V2. pose proof (transposed_song b w1 w2 order1 order2 opt p1 p2 tf cbs1 cbs2 d W1 W2 A1 A2 P1 P2 Hr Hd V1 V2) as H.
  destruct (song_from_midi_file b w1 order1 opt p1 tf), (song_from_midi_file b w2 order2 opt p2 tf); cbn [orel] in H; try contradiction; try congruence; eauto.
Qed.
