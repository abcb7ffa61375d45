(** FileExamples.v: stable sorts are unique, and concrete files for PropPlayback.v. *)
From Coq Require Import ZArith List Bool Lia ZifyBool ZifyNat Permutation Sorted String.
From Verif Require Import Base ProofLib F32 Messages Command Track SeqTree Song Paths Manifest Midi Json Cli SpecMidi SpecNotes SpecVoices SpecVoice SpecTime
  SpecNspc SpecLoop SpecRom SpecAram SpecSong SpecPlayback SpecFile MergeProofs MidiExamples OptProofs LoopExamples AramProofs AramMore SongProofs.
Open Scope Z_scope.
Open Scope list_scope.

(** ** A list has one stable sort *)
Lemma not_after_both x y : not_after x y -> not_after y x -> same_place x y = true.
Proof. unfold not_after, same_place. lia. Qed.
Lemma same_place_refl x : same_place x x = true.
Proof. unfold same_place. lia. Qed.
Lemma sorted_unique a : forall b, Permutation a b -> StronglySorted not_after a -> StronglySorted not_after b ->
  (forall x, filter (same_place x) a = filter (same_place x) b) -> a = b.
Proof.
  induction a as [|x a IH]; intros b Hp Ha Hb Hf.
  - apply Permutation_nil in Hp. auto.
  - destruct b as [|y b]; [apply Permutation_sym, Permutation_nil in Hp; discriminate|].
    inversion Ha as [|? ? Ha' Hxa]; subst. inversion Hb as [|? ? Hb' Hyb]; subst. rewrite Forall_forall in Hxa, Hyb.
    assert (Hxy : x = y \/ same_place x y = true).
    { assert (Hy : In y (x :: a)) by (eapply Permutation_in; [symmetry; exact Hp|left; reflexivity]).
      assert (Hx : In x (y :: b)) by (eapply Permutation_in; [exact Hp|left; reflexivity]).
      destruct Hy as [->|Hy]; [auto|]. destruct Hx as [->|Hx]; [auto|]. right. apply not_after_both; auto. }
    assert (x = y).
    { destruct Hxy as [E|E]; [exact E|]. specialize (Hf x). cbn [filter] in Hf. rewrite same_place_refl, E in Hf. injection Hf as Hf _. exact Hf. }
    subst y. f_equal. apply IH; auto.
    + apply Permutation_cons_inv in Hp. exact Hp.
    + intros z. specialize (Hf z). cbn [filter] in Hf. destruct (same_place z x); [injection Hf as Hf; exact Hf|exact Hf].
Qed.
Lemma stable_sort_unique l a b : stable_sort_of l a -> stable_sort_of l b -> a = b.
Proof.
  intros (P1 & S1 & F1) (P2 & S2 & F2). apply sorted_unique; auto.
  - rewrite <- P1. exact P2.
  - intros x. rewrite F1, F2. reflexivity.
Qed.
Lemma stable_sort_is l a : stable_sort_of l a -> a = sort_msgs l.
Proof. intros H. eapply stable_sort_unique; [exact H|apply sort_stable]. Qed.
Definition notes_in (ts : list (list message)) : list note :=
  flat_map channel_notes (map (fun c => sort_msgs (file_order ts c)) (seq 0 16)).
Lemma file_notes_is ts notes : file_notes ts notes -> notes = notes_in ts.
Proof.
  intros (chs & HL & Hs & ->). unfold notes_in. f_equal. apply nth_ext with (d := []) (d' := []); [rewrite map_length, seq_length; exact HL|].
  intros n Hn. rewrite HL in Hn. rewrite (stable_sort_is _ _ (Hs n)).
  rewrite nth_indep with (d' := (fun c => sort_msgs (file_order ts c)) 0%nat) by (rewrite map_length, seq_length; exact Hn).
  rewrite (map_nth (fun c => sort_msgs (file_order ts c))), seq_nth by exact Hn. reflexivity.
Qed.
Lemma file_notes_det ts n1 n2 : file_notes ts n1 -> file_notes ts n2 -> n1 = n2.
Proof. intros H1 H2. rewrite (file_notes_is _ _ H1), (file_notes_is _ _ H2). reflexivity. Qed.

(** ** A checker *)
Fixpoint released (k : Z) (o : bool) (l : list tmsg) : bool :=
  match l with
  | [] => true
  | x :: r => if drum_on k (fst x) then negb o && released k true r else released k (if drum_off k (fst x) then false else o) r
  end.
Lemma released_app k l1 : forall o l2, released k o (l1 ++ l2) = true -> exists o', released k o' l2 = true.
Proof.
  induction l1 as [|x l1 IH]; intros o l2 H; [eauto|]. cbn [app released] in H. destruct (drum_on k (fst x)); [|eauto].
  apply andb_true_iff in H. destruct H. eauto.
Qed.
Lemma released_between k l2 : forall y l3, released k true (l2 ++ y :: l3) = true -> drum_on k (fst y) = true ->
  exists z, In z l2 /\ drum_off k (fst z) = true.
Proof.
  induction l2 as [|x l2 IH]; intros y l3 H Hy; cbn [app released] in H.
  - rewrite Hy in H. discriminate.
  - destruct (drum_on k (fst x)); [discriminate|]. destruct (drum_off k (fst x)) eqn:E.
    + exists x. split; [left; reflexivity|exact E].
    + destruct (IH y l3 H Hy) as (z & Hz & E'). exists z. split; [right; exact Hz|exact E'].
Qed.
Lemma released_ok l : released 38 false l && released 40 false l = true -> snares_released l.
Proof.
  intros H k l1 x l2 y l3 Hk -> Hx Hy. apply andb_true_iff in H. destruct H as [H1 H2].
  assert (H : released k false (l1 ++ x :: l2 ++ y :: l3) = true) by (destruct Hk; subst k; assumption).
  apply released_app in H. destruct H as (o & H). cbn [released] in H. rewrite Hx in H. apply andb_true_iff in H. destruct H as [_ H].
  eapply released_between; eauto.
Qed.
Definition valid_b (m : message) : bool :=
  match m with
  | MidiEvent _ (NoteOn _ k v) => (0 <=? k) && (k <? 128) && (0 <=? v) && (v <? 128)
  | MidiEvent _ (NoteOff _ k _) => (0 <=? k) && (k <? 128)
  | MidiEvent _ (ControlChange _ _ d) => (0 <=? d) && (d <? 128)
  | MidiEvent _ (ProgramChange _ p) => (0 <=? p) && (p <? 128)
  | MetaEvent _ SetTempo data => Nat.leb 3 (length data)
  | _ => true
  end.
Lemma valid_b_ok m : valid_b m = true -> midi_valid m.
Proof. destruct m as [? [] ?|? []| |]; cbn [valid_b midi_valid]; intros H; try exact I; lia. Qed.
Definition same_key (m m' : message) : bool :=
  match note_key m, note_key m' with Some k, Some k' => k =? k' | None, None => true | _, _ => false end.
Fixpoint holds_note_b (l : list tmsg) (t : Z) : bool :=
  match l with
  | [] => false
  | (m, t1) :: r => (note_on m && (t1 <? t) &&
      forallb (fun z => negb (same_key (fst z) m) || (t <? snd z) || ((t =? snd z) && note_on (fst z))) r) || holds_note_b r t
  end.
Lemma holds_note_b_ok l t : holds_note l t -> holds_note_b l t = true.
Proof.
  intros (l1 & m & t1 & l2 & -> & Hon & Ht & HF). induction l1 as [|[m' t'] l1 IH]; cbn [app holds_note_b].
  - apply orb_true_iff. left. rewrite Hon. replace (t1 <? t) with true by lia. cbn [andb]. apply forallb_forall. intros z Hz.
    unfold same_key. destruct (note_key (fst z)) eqn:E1, (note_key m) eqn:E2; try reflexivity.
    + destruct (Z.eqb_spec z0 z1) as [He|He]; [subst z1|reflexivity]. destruct (HF z Hz) as [H|[H H']]; [congruence| |].
      * replace (t <? snd z) with true by lia. reflexivity.
      * rewrite H'. replace (t =? snd z) with true by lia. rewrite orb_true_r. reflexivity.
    + destruct (HF z Hz) as [H|[H H']]; [congruence| |].
      * replace (t <? snd z) with true by lia. reflexivity.
      * rewrite H'. replace (t =? snd z) with true by lia. rewrite orb_true_r. reflexivity.
  - rewrite IH. apply orb_true_r.
Qed.
Fixpoint balanced_b (n : Z) (l : list tmsg) : bool :=
  (0 <=? n) && (n <? 2 ^ 64) && match l with [] => true | (m, _) :: r => balanced_b (n + weight m) r end.
Lemma balanced_b_ok l : forall n, balanced_b n l = true -> forall p q, l = p ++ q -> 0 <= n + surplus p < 2 ^ 64.
Proof.
  induction l as [|[m t] l IH]; intros n H p q E; cbn [balanced_b] in H; apply andb_true_iff in H; destruct H as [H1 H2];
    (destruct p as [|[m' t'] p]; [cbn [surplus]; lia|]); [discriminate|].
  cbn [app] in E. injection E as <- <- E. cbn [surplus]. specialize (IH _ H2 p q E). lia.
Qed.
Definition before_b (l : list tmsg) (t : Z) : bool := existsb (fun x => (note_on (fst x) || note_off (fst x)) && (t <? snd x)) l.
Lemma before_b_ok l t : before_b l t = true -> before_end l t.
Proof.
  intros H. apply existsb_exists in H. destruct H as ([m u] & Hin & H). cbn [fst snd] in H. apply andb_true_iff in H. destruct H as [H1 H2].
  exists m, u. split; [exact Hin|]. split; [exact H1|lia].
Qed.
Definition together_b (l l' : list tmsg) : bool :=
  balanced_b 0 l && balanced_b 0 l' &&
  existsb (fun x => let t := snd x in (0 <=? t) && before_b l t && before_b l' t && (0 <? SpecVoices.sounding l t) && (0 <? SpecVoices.sounding l' t)) (l ++ l').
Lemma together_b_ok l l' : together_b l l' = true -> together l l'.
Proof.
  unfold together_b. rewrite !andb_true_iff. intros [[H1 H2] H3]. split; [|split].
  - intros p q E. exact (balanced_b_ok l 0 H1 p q E).
  - intros p q E. exact (balanced_b_ok l' 0 H2 p q E).
  - apply existsb_exists in H3. destruct H3 as (x & _ & H). cbv zeta in H. rewrite !andb_true_iff in H. destruct H as [[[[A B] C] D] E].
    exists (snd x). split; [lia|]. split; [apply before_b_ok; exact B|]. split; [apply before_b_ok; exact C|]. lia.
Qed.
Definition programs_b (ts : list (list message)) : bool :=
  let chs := map (fun c => (c, sort_msgs (file_order ts c))) (seq 0 16) in
  forallb (fun x => negb (is_pc (fst x)) ||
    forallb (fun cl => negb (for_channel (fst cl) x) ||
      forallb (fun cl' => negb (holds_note_b (snd cl') (snd x)) || (negb (Nat.eqb (fst cl') (fst cl)) && together_b (snd cl) (snd cl'))) chs) chs)
    (flat_map (SpecMidi.timed 0) ts).
Lemma programs_b_ok ts x c c' l l' : programs_b ts = true -> In x (flat_map (SpecMidi.timed 0) ts) -> is_pc (fst x) = true -> for_channel c x = true ->
  (c < 16)%nat -> stable_sort_of (file_order ts c) l -> stable_sort_of (file_order ts c') l' -> (c' < 16)%nat ->
  holds_note l' (snd x) -> c' <> c /\ together l l'.
Proof.
  unfold programs_b. cbv zeta. intros H Hx Hp Hc Hc16 Hl Hl' Hc16' Hh. apply stable_sort_is in Hl, Hl'. subst l l'.
  rewrite forallb_forall in H. specialize (H x Hx). rewrite Hp in H. cbn [negb orb] in H. rewrite forallb_forall in H.
  specialize (H (c, sort_msgs (file_order ts c))). cbn [fst snd] in H. rewrite Hc in H. cbn [negb orb] in H.
  assert (Hin : forall k, (k < 16)%nat -> In (k, sort_msgs (file_order ts k)) (map (fun c => (c, sort_msgs (file_order ts c))) (seq 0 16))).
  { intros k Hk. apply (in_map (fun c => (c, sort_msgs (file_order ts c)))). apply in_seq. lia. }
  specialize (H (Hin c Hc16)). rewrite forallb_forall in H. specialize (H _ (Hin c' Hc16')). cbn [fst snd] in H.
  rewrite (holds_note_b_ok _ _ Hh) in H. cbn [negb orb] in H. apply andb_true_iff in H. destruct H as [H1 H2]. split; [|apply together_b_ok; exact H2].
  intros E. subst c'. rewrite Nat.eqb_refl in H1. discriminate.
Qed.
Definition apart_b (tpb e t : Z) : bool :=
  (24 * e + tpb <=? 24 * t) || ((tpb mod 24 =? 0) && ((24 * e + tpb - 1) / tpb * tpb <? 24 * t)).
Lemma apart_b_ok tpb e t : 1 <= tpb -> apart_b tpb e t = true -> apart tpb (Some e) t.
Proof.
  unfold apart_b. intros Hg H. apply orb_true_iff in H. cbn [apart]. destruct H as [H|H]; [left; lia|right]. split; [lia|].
  exists ((24 * e + tpb - 1) / tpb). split; [|lia]. pose proof (Z.div_mod (24 * e + tpb - 1) tpb ltac:(lia)).
  pose proof (Z.mod_pos_bound (24 * e + tpb - 1) tpb ltac:(lia)). lia.
Qed.
Definition lengths_b (tpb : Z) (ts : list (list message)) : bool :=
  forallb (fun n => match nt_off n with Some off => 24 * nt_on n + tpb <=? 24 * off | None => true end) (notes_in ts) ||
  (forallb (fun x => 24 * (snd x + 1) + tpb <? 2 ^ 23) (flat_map (SpecMidi.timed 0) ts) &&
   forallb (fun n => match nt_off n with
     | Some off => (nt_on n <? off) && forallb (fun n' => match nt_off n' with Some e => (nt_on n <? e) || apart_b tpb e off | None => true end) (notes_in ts)
     | None => true end) (notes_in ts)).
Lemma lengths_b_ok tpb ts notes : 1 <= tpb -> lengths_b tpb ts = true -> notes = notes_in ts -> Forall (step_long tpb) notes \/
    ((forall x, In x (flat_map (SpecMidi.timed 0) ts) -> 24 * (snd x + 1) + tpb < 2 ^ 23) /\ well_apart tpb notes).
Proof.
  intros Hg H ->. unfold lengths_b in H. apply orb_true_iff in H. destruct H as [H|H].
  - left. rewrite forallb_forall in H. apply Forall_forall. intros n Hn off E. specialize (H n Hn). rewrite E in H. lia.
  - right. apply andb_true_iff in H. destruct H as [H1 H2]. rewrite forallb_forall in H1, H2. split.
    + intros x Hx. specialize (H1 x Hx). lia.
    + intros n off Hn E. specialize (H2 n Hn). rewrite E in H2. apply andb_true_iff in H2. destruct H2 as [H2 H3]. split; [lia|].
      intros n' e Hn' E' Hle. rewrite forallb_forall in H3. specialize (H3 n' Hn'). rewrite E' in H3. apply apart_b_ok; [exact Hg|].
      replace (nt_on n <? e) with false in H3 by lia. exact H3.
Qed.
Definition renderable_b (tpb : Z) (ts : list (list message)) : bool :=
  let all := flat_map (SpecMidi.timed 0) ts in
  (1 <=? tpb) && (tpb <=? 65535) &&
  forallb (fun tr => forallb (fun x => match addressee (fst x) with Some c => (0 <=? c) && (c <? 16) | None => true end
     && (0 <=? delta (fst x)) && (0 <=? snd x) && (snd x <? 2 ^ 32)) (SpecMidi.timed 0 tr)) ts &&
  forallb (forallb valid_b) ts &&
  forallb (fun x => (24 * (snd x + 1) <=? 32510 * tpb) && (snd x + tpb <? 2 ^ 24)) all &&
  programs_b ts &&
  forallb (fun n => (24 <=? nt_key (drum n)) && (nt_key (drum n) <=? 95)) (notes_in ts) && lengths_b tpb ts &&
  (let d := sort_msgs (file_order ts 9) in released 38 false d && released 40 false d).
Lemma renderable_b_ok tpb ts : renderable_b tpb ts = true -> renderable tpb ts.
Proof.
  unfold renderable_b. cbv zeta. rewrite !andb_true_iff. intros [[[[[[[[H1 H2] H3] H4] H5] H6] H7] H9] H8]. constructor.
  - lia.
  - apply Forall_forall. intros tr Htr. rewrite forallb_forall in H3. specialize (H3 tr Htr). rewrite forallb_forall in H3.
    apply Forall_forall. intros x Hx. specialize (H3 x Hx). unfold channel_ok. destruct (addressee (fst x)); lia.
  - rewrite forallb_forall in H4. apply Forall_forall. intros tr Htr. specialize (H4 tr Htr). rewrite forallb_forall in H4.
    apply Forall_forall. intros m Hm. apply valid_b_ok. auto.
  - intros x Hx. rewrite forallb_forall in H5. specialize (H5 x Hx). lia.
  - intros x c c' l l' Hx Hpc Hc. apply (programs_b_ok ts x c c' l l' H6 Hx Hpc Hc).
    apply in_flat_map in Hx. destruct Hx as (tr & Htr & Hx). rewrite forallb_forall in H3. specialize (H3 tr Htr). rewrite forallb_forall in H3.
    specialize (H3 x Hx). unfold for_channel in Hc. destruct (addressee (fst x)); [lia|discriminate].
  - intros notes Hn. apply file_notes_is in Hn. subst notes. rewrite forallb_forall in H7. apply Forall_forall. intros n Hn.
    specialize (H7 n Hn). lia.
  - intros notes Hn. apply file_notes_is in Hn. apply (lengths_b_ok tpb ts notes); [lia|exact H9|exact Hn].
  - intros l Hl. apply stable_sort_is in Hl. subst l. apply released_ok. apply andb_true_iff. exact H8.
Qed.
Lemma good_renderable : renderable (beat_ticks good_file) (tracks_of good_file).
Proof. apply renderable_b_ok. vm_compute. reflexivity. Qed.
(** A program change on one channel while another one plays. *)
Definition busy_file : list callback :=
  [head1; CTrackChange; midi 0 (ProgramChange 0 40); midi 0 (NoteOn 0 60 100); midi 24 (NoteOff 0 60 0); midi 0 (ProgramChange 0 41);
   midi 0 (NoteOn 0 62 100); midi 24 (NoteOff 0 62 0); CTrackChange; midi 0 (NoteOn 1 70 100); midi 48 (NoteOff 1 70 0)].
Lemma busy_renderable : renderable (beat_ticks busy_file) (tracks_of busy_file).
Proof. apply renderable_b_ok. vm_compute. reflexivity. Qed.
(** Drum hits of half a step (10 of 20 ticks), one of which starts a tick after the melody's note has ended. *)
Definition brisk_file : list callback :=
  [CHeader 1 2 480; CTrackChange; midi 0 (NoteOn 0 60 100); midi 479 (NoteOff 0 60 0); midi 1 (NoteOn 0 62 100); midi 480 (NoteOff 0 62 0);
   CTrackChange; midi 240 (NoteOn 9 38 100); midi 10 (NoteOff 9 38 0); midi 230 (NoteOn 9 42 100); midi 10 (NoteOff 9 42 0)].
Lemma brisk_renderable : renderable (beat_ticks brisk_file) (tracks_of brisk_file).
Proof. apply renderable_b_ok. vm_compute. reflexivity. Qed.

(** ** Placing a song of one part in memory: header, part table, tracks one after the other *)
Fixpoint places (a : Z) (ds : list (list Z * list call_loop_ref)) : list Z :=
  match ds with
  | [] => []
  | d :: r => (match fst d with [] => 0 | _ => a end) :: places (a + Z.of_nat (length (fst d))) r
  end.
Definition written (s : song) : list (list Z * list call_loop_ref) :=
  map (fun i => match write_track s [] i [] with Ok d => d | _ => ([], []) end) (seq 0 (length (tracks s))).
Definition place (a : Z) (s : song) : list Z := places (a + 20) (written s).
Definition image_of (a : Z) (s : song) : list Z :=
  let at_ := place a s in
  le (a + 4) ++ le 0 ++ flat_map (fun k => le (match nth_error (nth 0 (parts s) []) k with Some ti => nth ti at_ 0 | None => 0 end)) (seq 0 8) ++
  flat_map (fun d => patch (fst d) (snd d) at_) (written s).

Definition good_song (b : build) (opt : bool) : outcome song :=
  song_from_midi_file b (mk_world (fun _ => (good_file, true)) (fun _ => None)) id_order opt "song.mid"%string f32_0_3.

Definition good_tracks : list track := Eval vm_compute in match good_song Debug false with Ok s => tracks s | _ => [] end.
Definition good_at : list Z := Eval vm_compute in place 0xd000 (mk_song [[0; 1; 2]%nat] good_tracks).
Definition good_bytes : list Z := Eval vm_compute in image_of 0xd000 (mk_song [[0; 1; 2]%nat] good_tracks).
Definition good_mem : Z -> option Z := mem_of 0xd000 good_bytes.
Lemma good_converts b opt : good_song b opt = Ok (mk_song [[0; 1; 2]%nat] good_tracks).
Proof. destruct b, opt; vm_compute; reflexivity. Qed.
Lemma good_short : Forall seven_bit good_tracks.
Proof.
  assert (H : forallb (forallb (fun pc => match duration pc with Some d => (0 <=? d) && (d <=? 127) | None => true end)) good_tracks = true) by (vm_compute; reflexivity).
  apply Forall_forall. intros tr Htr. rewrite forallb_forall in H. specialize (H tr Htr). rewrite forallb_forall in H.
  apply Forall_forall. intros pc Hpc. specialize (H pc Hpc). unfold in_range. destruct (duration pc); [lia|exact I].
Qed.
Lemma good_varied : keeps_music good_tracks good_tracks.
Proof. apply keeps_b_ok. vm_compute. reflexivity. Qed.
Lemma good_in : song_in good_mem 0xd000 false (mk_song [[0; 1; 2]%nat] good_tracks) good_at.
Proof. apply song_b_ok. vm_compute. reflexivity. Qed.

(** A snare ended by a note-on of velocity 0. *)
Definition snare_file : list callback :=
  [head1; CTrackChange; midi 0 (NoteOn 9 38 100); midi 24 (NoteOn 9 38 0)].
Definition snare_song : song := Eval vm_compute in
  match song_from_midi_file Debug (mk_world (fun _ => (snare_file, true)) (fun _ => None)) id_order false "song.mid"%string f32_0_3 with
  | Ok s => s | _ => mk_song [] [] end.
Definition snare_at : list Z := Eval vm_compute in place 0xd000 snare_song.
Definition snare_bytes : list Z := Eval vm_compute in image_of 0xd000 snare_song.
Definition snare_mem : Z -> option Z := mem_of 0xd000 snare_bytes.
Lemma snare_converts b : song_from_midi_file b (mk_world (fun _ => (snare_file, true)) (fun _ => None)) id_order false "song.mid"%string f32_0_3 = Ok snare_song.
Proof. destruct b; vm_compute; reflexivity. Qed.
Lemma snare_in : song_in snare_mem 0xd000 false snare_song snare_at.
Proof. apply song_b_ok. vm_compute. reflexivity. Qed.
Definition snare_heard : list event :=
  [mk_event (TControl 250 [25]) None None; mk_event (TControl 229 [200]) None None; mk_event (TControl 237 [200]) None None;
   mk_event (TControl 224 [19]) None None; mk_event (TNote 142) (Some 6) (Some 124)].
Lemma snare_plays : song_plays snare_mem 0xd000 (snare_heard :: repeat [] 7).
Proof.
  assert (Hw : forall a w, holds_b snare_mem a w = true -> holds snare_mem a w) by (intros; apply holds_b_ok; assumption).
  exists 0xd004. split; [apply Hw; vm_compute; reflexivity|]. split; [reflexivity|].
  intros k es Hk. destruct k as [|k].
  - injection Hk as <-. exists 0xd014. split; [apply Hw; vm_compute; reflexivity|]. eexists. apply (exec_ok snare_mem 50%nat). vm_compute. reflexivity.
  - exists 0. assert (Hk7 : (k < 7)%nat).
    { cbn [nth_error] in Hk. apply nth_error_lt in Hk. rewrite repeat_length in Hk. exact Hk. }
    split.
    + apply Hw. do 7 (destruct k as [|k]; [vm_compute; reflexivity|]). lia.
    + cbn [nth_error] in Hk. apply nth_error_In, repeat_spec in Hk. exact Hk.
Qed.
Lemma snare_wrong : forall b, exists w s mem at_ ess n,
  midi_file w "song.mid"%string = (snare_file, true) /\ song_from_midi_file b w id_order false "song.mid"%string f32_0_3 = Ok s /\
  song_in mem 0xd000 false s at_ /\ mem 0 = None /\ song_plays mem 0xd000 ess /\
  (forall notes, file_notes (tracks_of snare_file) notes -> notes = [n]) /\ ended n = true /\
  flat_map attacks ess = [(0, driver_pitch (nt_key n))] /\ nt_key (drum n) <> nt_key n.
Proof.
  intros b. exists (mk_world (fun _ => (snare_file, true)) (fun _ => None)), snare_song, snare_mem, snare_at, (snare_heard :: repeat [] 7), (mk_note 9 38 0 (Some 24) 100).
  split; [reflexivity|]. split; [apply snare_converts|]. split; [exact snare_in|]. split; [reflexivity|]. split; [exact snare_plays|].
  split; [intros notes H; rewrite (file_notes_is _ _ H); vm_compute; reflexivity|]. split; [reflexivity|]. split; [reflexivity|discriminate].
Qed.
