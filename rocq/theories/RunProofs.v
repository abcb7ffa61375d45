(** RunProofs.v: whole commands over the file system (C57, C58, C59). *)
From Coq Require Import ZArith List Bool Lia ZifyBool ZifyNat String.
From Verif Require Import SpecPath PathProofs.
From Verif Require Import Base ProofLib F32 Messages Command Track SeqTree Song Paths Manifest Midi Json Cli SpecNspc SpecMidi SpecVoices SpecVoice SpecLoop SpecSong
  SpecRom SpecBank RomLib RomBanks RomMore RomFinal RomTwice LoopProofs ReadProofs SongProofs SongMore SpecBuild BuildProofs SongBytes.
From Verif Require Rom.
From Verif Require Import MidiExamples RomExamples Run SpecRun.
Open Scope Z_scope.
Open Scope list_scope.

Lemma store_same f p c : store f p c p = Some c.
Proof. unfold store. rewrite String.eqb_refl. reflexivity. Qed.
Lemma store_other f p c q : q <> p -> store f p c q = f q.
Proof. unfold store. intros H. apply String.eqb_neq in H. rewrite H. reflexivity. Qed.

(** ** C57 *)
Lemma on_rom_frame f o rom op r f' : on_rom f o rom op = (r, f') -> forall q, q <> rom -> f' q = f q.
Proof.
  unfold on_rom. intros H q Hq. destruct (f rom) as [c|]; [destruct (op c (os_open o rom)) as [x c']|]; injection H as <- <-; [apply store_other; exact Hq|reflexivity].
Qed.
Lemma run_frame b t order o fl c f r f' : run b t order o fl c f = (r, f') -> forall q, target c <> Some q -> f' q = f q.
Proof.
  intros H q Hq. destruct c; cbn [run target] in *.
  - unfold run_build_rom in H. destruct (read_bank_addrs bank_addrs); try (injection H as <- <-; reflexivity).
    destruct (json_file (world_of t f) manifest), (parent manifest); try (injection H as <- <-; reflexivity); eapply on_rom_frame; try exact H; congruence.
  - unfold run_one_song in H. destruct (read_bank_addrs bank_addrs); try (injection H as <- <-; reflexivity). eapply on_rom_frame; [exact H|congruence].
  - unfold run_one_song in H. destruct (read_bank_addrs bank_addrs); try (injection H as <- <-; reflexivity). eapply on_rom_frame; [exact H|congruence].
  - unfold run_dump_midi in H. destruct (midi_file (world_of t f) input). destruct (midi_read b l b0 order); injection H as <- <-; reflexivity.
  - unfold run_midi2json in H. destruct (midi2json b (world_of t f) order _ input); try (injection H as <- <-; reflexivity).
    destruct (os_create o output); [|injection H as <- <-; reflexivity]. destruct (os_json o); injection H as <- <-; apply store_other; congruence.
  - unfold run_gen_fake_rom in H. destruct (f input); [|injection H as <- <-; reflexivity].
    destruct (Rom.fake_image b l Rom.DEFAULT_BANK_BASE_ADDRS); try (injection H as <- <-; reflexivity).
    destruct (os_create o output); [|injection H as <- <-; reflexivity]. destruct (Rom.gen_fake_rom _ _ _ _ _). injection H as <- <-. apply store_other. congruence.
Qed.

(** A ROM file is rewritten in place, or left alone. *)
Definition in_place (op : Rom.image -> bool -> outcome unit * Rom.image) : Prop :=
  (forall c, fst (op c false) <> Ok tt) /\
  forall c p r c', op c p = (r, c') -> length c' = length c /\ (r <> Ok tt -> c' = c).
Lemma overwrite_length (c d : list Z) n : length d = length c -> length (Rom.file_overwrite c d n) = length c.
Proof. intros H. unfold Rom.file_overwrite. rewrite app_length, skipn_length, firstn_length. lia. Qed.
Lemma write_in_place b v m addrs conv os : in_place (fun c p => Rom.rom_write b v m c p addrs conv os).
Proof.
  split; [intros c; discriminate|]. intros c p r c' H. unfold Rom.rom_write in H. destruct p; [|injection H as <- <-; auto].
  destruct (Rom.write_banks b v m 0 0 c addrs conv) as [d| | |] eqn:E; try (injection H as <- <-; auto).
  destruct os; injection H as <- <-; [|auto]. split; [|congruence]. apply overwrite_length. eapply banks_length. exact E.
Qed.
Lemma build_in_place b v opt w order mp d addrs os : in_place (fun c p => build_rom b v opt w order mp d c p addrs os).
Proof.
  unfold build_rom. destruct (json_file w mp) as [j|]; [destruct (manifest_new j d)|]; [apply write_in_place| | | |];
    (split; [intros ?; cbn; discriminate|intros ? ? ? ? H; injection H as <- <-; auto]).
Qed.
Lemma on_rom_in_place f o rom op r f' : in_place op -> on_rom f o rom op = (r, f') ->
  (r <> Ok tt -> same_files f f') /\ (f rom = None -> r <> Ok tt) /\
  (forall c, f rom = Some c -> exists c', f' rom = Some c' /\ length c' = length c).
Proof.
  unfold on_rom. intros [I1 I2] H. destruct (f rom) as [c|] eqn:E.
  - destruct (op c (os_open o rom)) as [x c'] eqn:Eo. injection H as <- <-. destruct (I2 _ _ _ _ Eo) as [L K]. split; [|split].
    + intros Hx q. destruct (String.eqb_spec q rom) as [->|Hq]; [rewrite store_same, K by exact Hx; congruence|apply store_other; exact Hq].
    + discriminate.
    + intros c0 E0. injection E0 as <-. exists c'. split; [apply store_same|exact L].
  - injection H as <- <-. split; [intros _ q; reflexivity|]. split; [intros _; apply I1|discriminate].
Qed.
Lemma run_rom b t order o fl c f r f' rom : builds_rom c rom -> run b t order o fl c f = (r, f') ->
  (r <> Ok tt -> same_files f f') /\ (f rom = None -> r <> Ok tt) /\
  (forall c, f rom = Some c -> exists c', f' rom = Some c' /\ length c' = length c).
Proof.
  assert (K : forall r0 : outcome unit, r0 <> Ok tt -> (r0 <> Ok tt -> same_files f f) /\ (f rom = None -> r0 <> Ok tt) /\
    (forall c, f rom = Some c -> exists c', f rom = Some c' /\ length c' = length c)).
  { intros r0 H0. split; [intros _ q; reflexivity|]. split; [auto|]. intros c0 E. exists c0. auto. }
  intros Hc H. destruct c; cbn [run builds_rom] in *; try contradiction; subst.
  - unfold run_build_rom in H. destruct (read_bank_addrs bank_addrs); try (injection H as <- <-; apply K; discriminate).
    destruct (json_file (world_of t f) manifest), (parent manifest); try (injection H as <- <-; apply K; discriminate);
      eapply on_rom_in_place; try exact H; apply build_in_place.
  - unfold run_one_song in H. destruct (read_bank_addrs bank_addrs); try (injection H as <- <-; apply K; discriminate).
    eapply on_rom_in_place; [|exact H]. apply write_in_place.
  - unfold run_one_song in H. destruct (read_bank_addrs bank_addrs); try (injection H as <- <-; apply K; discriminate).
    eapply on_rom_in_place; [|exact H]. apply write_in_place.
Qed.
Lemma run_dump b t order o fl input f r f' : run b t order o fl (CDumpMidi input) f = (r, f') -> f' = f /\ forall e, r <> Err e.
Proof.
  cbn [run]. unfold run_dump_midi. destruct (midi_file (world_of t f) input) as [cbs complete]. intros H.
  destruct (midi_read b cbs complete order); injection H as <- <-; (split; [reflexivity|discriminate]).
Qed.
Lemma run_json_err b t order o fl input output f e f' : run b t order o fl (CMidi2Json input output) f = (Err e, f') -> f' = f.
Proof.
  cbn [run]. unfold run_midi2json. destruct (midi2json b (world_of t f) order _ input); try (intros H; injection H; congruence); try discriminate.
  destruct (os_create o output); [destruct (os_json o)|]; discriminate.
Qed.
Lemma run_json_ok b t order o fl input output f f' : run b t order o fl (CMidi2Json input output) f = (Ok tt, f') ->
  exists v, midi2json b (world_of t f) order (negb (skip_optimization fl)) input = Ok v /\ f' = store f output (print_json t v).
Proof.
  cbn [run]. unfold run_midi2json. destruct (midi2json b (world_of t f) order _ input) as [v| | |]; try discriminate.
  destruct (os_create o output); [destruct (os_json o)|]; try discriminate. intros H. injection H as <-. eauto.
Qed.
(** Failures of the other two commands can leave a file behind. *)
Definition failing_os : os := mk_os (fun _ => true) (fun _ => true) Rom.WriteFailed (Some 2%nat).

(** The release build ignores the verbose flag. *)
Lemma build_verbose opt w order mp d c p addrs os v :
  build_rom Release v opt w order mp d c p addrs os = build_rom Release false opt w order mp d c p addrs os.
Proof. unfold build_rom. destruct (json_file w mp); [|reflexivity]. destruct (manifest_new j d); try reflexivity. apply rom_verbose_release. Qed.
Lemma on_rom_ext f o rom op op' : (forall c p, op c p = op' c p) -> on_rom f o rom op = on_rom f o rom op'.
Proof. intros H. unfold on_rom. destruct (f rom); rewrite H; reflexivity. Qed.
Lemma run_verbose t order o sk v c f : run Release t order o (mk_flags sk v) c f = run Release t order o (mk_flags sk false) c f.
Proof.
  destruct c; cbn [run skip_optimization verbose_flag]; [| | |reflexivity..].
  - unfold run_build_rom. destruct (read_bank_addrs bank_addrs); [|reflexivity..].
    destruct (json_file (world_of t f) manifest), (parent manifest); [|reflexivity| |]; apply on_rom_ext; intros; apply build_verbose.
  - unfold run_one_song. destruct (read_bank_addrs bank_addrs); [|reflexivity..]. apply on_rom_ext; intros. apply rom_verbose_release.
  - unfold run_one_song. destruct (read_bank_addrs bank_addrs); [|reflexivity..]. apply on_rom_ext; intros. apply rom_verbose_release.
Qed.

(** ** C46 for whole commands *)
Lemma on_rom_builds f o rom op op' : (forall c p, same_file_unless_overflow c (op c p) (op' c p)) ->
  (fst (on_rom f o rom op) = Panic POverflow /\ same_files f (snd (on_rom f o rom op))) \/ on_rom f o rom op = on_rom f o rom op'.
Proof.
  intros H. unfold on_rom. destruct (f rom) as [c|] eqn:E.
  - destruct (H c (os_open o rom)) as [-> | ->]; [left|right; reflexivity]. cbn [fst snd]. split; [reflexivity|]. intros q.
    destruct (String.eqb_spec q rom) as [->|Hq]; [rewrite store_same; congruence|apply store_other; exact Hq].
  - destruct (H [] false) as [-> | ->]; [left|right; reflexivity]. split; [reflexivity|intros q; reflexivity].
Qed.
Lemma run_builds t order o fl c f :
  (fst (run Debug t order o fl c f) = Panic POverflow /\ same_files f (snd (run Debug t order o fl c f))) \/
  run Debug t order o fl c f = run Release t order o fl c f.
Proof.
  assert (Hr : same_files f f) by (intros q; reflexivity).
  destruct c; cbn [run].
  - unfold run_build_rom. destruct (read_bank_addrs bank_addrs); [|right; reflexivity..].
    destruct (json_file (world_of t f) manifest), (parent manifest); [|right; reflexivity| |]; apply on_rom_builds; intros; apply ag_build_rom.
  - unfold run_one_song. destruct (read_bank_addrs bank_addrs); [|right; reflexivity..]. apply on_rom_builds; intros; apply ag_all_overworld.
  - unfold run_one_song. destruct (read_bank_addrs bank_addrs); [|right; reflexivity..]. apply on_rom_builds; intros; apply ag_file_select.
  - unfold run_dump_midi. destruct (midi_file (world_of t f) input). destruct (ag_midi_read l b order) as [-> | ->]; [left; auto|right; reflexivity].
  - unfold run_midi2json. destruct (ag_midi2json (world_of t f) order (negb (skip_optimization fl)) input) as [-> | ->]; [left; auto|right; reflexivity].
  - unfold run_gen_fake_rom. destruct (f input) as [l|]; [|right; reflexivity]. destruct (ag_fake_image l Rom.DEFAULT_BANK_BASE_ADDRS) as [H|H].
    + rewrite H. left. auto.
    + rewrite H. unfold Rom.gen_fake_rom. rewrite H. right. reflexivity.
Qed.

(** ** C58 *)
Lemma load_ext b v bl conv conv' : forall sds sds', Forall2 (fun x y => loops x = loops y /\ Rom.check_file_name x = Rom.check_file_name y /\ Rom.load_song b conv x = Rom.load_song b conv' y) sds sds' ->
  forall st, ofold (Rom.write_song_def b v bl conv) sds st = ofold (Rom.write_song_def b v bl conv') sds' st.
Proof.
  induction 1 as [|x y xs ys (H1 & H2 & H3) _ IH]; intros st; [reflexivity|]. cbn [ofold].
  assert (E : Rom.write_song_def b v bl conv st x = Rom.write_song_def b v bl conv' st y) by (unfold Rom.write_song_def; rewrite H1, H2, H3; reflexivity).
  rewrite E. destruct (Rom.write_song_def b v bl conv' st y); [apply IH| | |]; reflexivity.
Qed.
Lemma banks_ext b v conv conv' addrs : forall m m', Forall2 (fun bk bk' => Forall2 (fun x y => loops x = loops y /\ Rom.check_file_name x = Rom.check_file_name y /\ Rom.load_song b conv x = Rom.load_song b conv' y) (songs bk) (songs bk')) m m' ->
  forall i first r, Rom.write_banks b v m i first r addrs conv = Rom.write_banks b v m' i first r addrs conv'.
Proof.
  induction 1 as [|x y xs ys H1 _ IH]; intros i first r; [reflexivity|]. cbn [Rom.write_banks].
  assert (EL : length (songs x) = length (songs y)) by (clear IH; induction H1; cbn; congruence).
  destruct (or_panic PIndex (nth_error addrs i)); [|reflexivity..]. cbn [bind]. destruct (or_panic PIndex (nth_error Rom.BANK_FIRST_SONG_ADDRS i)); [|reflexivity..]. cbn [bind].
  assert (E : Rom.write_bank b v x r a a0 first conv = Rom.write_bank b v y r a a0 first conv').
  { unfold Rom.write_bank. destruct (Rom.find_blocks b r a); [|reflexivity..]. cbn [bind]. rewrite (load_ext _ _ _ _ _ _ _ H1). reflexivity. }
  rewrite E. destruct (Rom.write_bank b v y r a a0 first conv'); [|reflexivity..]. cbn [bind]. rewrite EL. apply IH.
Qed.
Lemma rom_write_ext b v conv conv' addrs m m' : Forall2 (fun bk bk' => Forall2 (fun x y => loops x = loops y /\ Rom.check_file_name x = Rom.check_file_name y /\ Rom.load_song b conv x = Rom.load_song b conv' y) (songs bk) (songs bk')) m m' ->
  forall c p os, Rom.rom_write b v m c p addrs conv os = Rom.rom_write b v m' c p addrs conv' os.
Proof. intros H c p os. unfold Rom.rom_write. rewrite (banks_ext _ _ _ _ _ _ _ H). reflexivity. Qed.
Definition one_manifest (sel : bool) (p : path) : manifest := if sel then manifest_file_select p else manifest_single_song p.
Lemma one_ext b conv conv' p q sel : has_name p -> has_name q -> conv p DEFAULT_TEMPO_ADJUST = conv' q DEFAULT_TEMPO_ADJUST ->
  Forall2 (fun bk bk' => Forall2 (fun x y => loops x = loops y /\ Rom.check_file_name x = Rom.check_file_name y /\ Rom.load_song b conv x = Rom.load_song b conv' y) (songs bk) (songs bk'))
    (one_manifest sel p) (one_manifest sel q).
Proof.
  intros Hp Hq HE. apply has_name_iff in Hp, Hq. assert (HF : Rom.check_file_name (song_def_default p) = Rom.check_file_name (song_def_default q)).
  { unfold Rom.check_file_name. cbn [input song_def_default]. destruct (file_name p), (file_name q); try contradiction; reflexivity. }
  destruct sel; cbn; repeat first [apply Forall2_nil | apply Forall2_cons]; cbn [songs bank_name];
    repeat first [apply Forall2_nil | apply Forall2_cons]; (split; [reflexivity|]; split; [try exact HF; reflexivity|]); try exact HE; reflexivity.
Qed.

Lemma midi_same b w order order' opt p tf : (forall k, permutes (order k)) -> (forall k, permutes (order' k)) ->
  song_from_midi_file b w order opt p tf = song_from_midi_file b w order' opt p tf.
Proof. intros H H'. unfold song_from_midi_file. destruct (midi_file w p). rewrite (read_order_irrelevant b l b0 order order' H H'). reflexivity. Qed.

Lemma mid_named p : mid_file p -> has_name p.
Proof. intros (s & _ & H). eexists. exact H. Qed.

Lemma through_json b t order order' oj o fl fl' sel input js rom addrs f f1 r f2 r' f2' :
  (forall k, permutes (order k)) -> (forall k, permutes (order' k)) ->
  mid_file input -> ~ mid_file js -> has_name js -> rom <> js -> readable_midi t f input ->
  verbose_flag fl' = verbose_flag fl ->
  (forall s, song_from_midi_file b (world_of t f) order (negb (skip_optimization fl)) input DEFAULT_TEMPO_ADJUST = Ok s -> text_kept t s) ->
  run b t order oj fl (CMidi2Json input js) f = (Ok tt, f1) ->
  run b t order' o fl (one_song sel input rom addrs) f = (r, f2) ->
  run b t order' o fl' (one_song sel js rom addrs) f1 = (r', f2') ->
  r' = r /\ same_but js f2 f2'.
Proof.
  intros Ho Ho' Hm Hj Hn Hr (content & cbs & complete & Hf & Hp & Hty & Hfo & Hmv) Hv Hsmall H1 H2 H3.
  apply run_json_ok in H1. destruct H1 as (v & Hv1 & ->). unfold midi2json in Hv1. inv_bind Hv1. injection Hv1 as <-. rename a into s.
  assert (Hs : song_ok s).
  { pose proof Ha as Hsong. unfold song_from_midi_file in Ha. cbn [world_of midi_file] in Ha. rewrite Hf, Hp in Ha. inv_bind Ha.
    destruct (read_valid b cbs complete order a Hty Ho Hfo Hmv Ha0) as [H8 HV]. apply (converted_song_ok _ _ _ _ _ _ _ (eq_ind_r (fun n => (n <= 8)%nat) (le_n 8) H8) HV Ha (proj1 (Hsmall s Hsong))). }
  set (f1 := store f js (print_json t (song_to_json s))) in *.
  assert (Hc : converter b (world_of t f) order' (negb (skip_optimization fl)) input DEFAULT_TEMPO_ADJUST =
               converter b (world_of t f1) order' (negb (skip_optimization fl')) js DEFAULT_TEMPO_ADJUST).
  { rewrite (proj1 (converter_choice b (world_of t f) order' (negb (skip_optimization fl)) input DEFAULT_TEMPO_ADJUST) Hm).
    rewrite (proj2 (converter_choice b (world_of t f1) order' (negb (skip_optimization fl')) js DEFAULT_TEMPO_ADJUST) Hj).
    rewrite (midi_same b (world_of t f) order' order _ input _ Ho' Ho), Ha. unfold f1. cbn [world_of json_file]. rewrite store_same, (proj2 (Hsmall s Ha)).
    symmetry. apply song_round_trip. exact Hs. }
  assert (Hw : forall c p os addr, Rom.rom_write b (verbose_flag fl) (one_manifest sel input) c p addr (converter b (world_of t f) order' (negb (skip_optimization fl))) os =
                              Rom.rom_write b (verbose_flag fl') (one_manifest sel js) c p addr (converter b (world_of t f1) order' (negb (skip_optimization fl'))) os).
  { intros c p os addr. rewrite Hv. apply rom_write_ext. apply one_ext; [apply mid_named; exact Hm|exact Hn|exact Hc]. }
  assert (HR : f1 rom = f rom) by (apply store_other; exact Hr).
  assert (Hsame : same_but js f f1) by (intros q Hq; apply store_other; exact Hq).
  assert (HX : forall op op', (forall c p, op c p = op' c p) -> on_rom f o rom op = (r, f2) -> on_rom f1 o rom op' = (r', f2') -> r' = r /\ same_but js f2 f2').
  { intros op op' E A B. unfold on_rom in A, B. rewrite HR in B. rewrite <- E in B. destruct (f rom) as [c|].
    - rewrite <- E in B. destruct (op c (os_open o rom)) as [x c']. injection A as <- <-. injection B as <- <-. split; [reflexivity|].
      intros q Hq. unfold store. destruct (String.eqb q rom); [reflexivity|]. apply Hsame. exact Hq.
    - injection A as <- <-. injection B as <- <-. split; [reflexivity|exact Hsame]. }
  destruct sel; cbn [one_song run] in H2, H3; unfold run_one_song in H2, H3;
    (destruct (read_bank_addrs addrs); [|injection H2 as <- <-; injection H3 as <- <-; split; [reflexivity|exact Hsame]..]);
    (eapply HX; [|exact H2|exact H3]); intros c p; apply Hw.
Qed.

(** ** C59 *)
Lemma dummy_layouts b r d Ls : is_image r -> Forall (layout_ok r) Ls -> Rom.fake_image b r (map lo_addr Ls) = Ok d ->
  length d = length r /\ is_image d /\ Forall (layout_ok d) Ls.
Proof.
  intros Hr HLs H. assert (HA : Forall addr_ok (map lo_addr Ls)).
  { rewrite Forall_map. eapply Forall_impl; [|exact HLs]. intros L [A _ _ _ _ _]. exact A. }
  destruct (dummy b r (map lo_addr Ls) d Hr HA H) as (D1 & _ & D3 & D4 & _).
  set (P := fun x => ~ exists a, In a (map lo_addr Ls) /\ bank_kept r a x).
  assert (HC : Forall (fun a => pointers_in r a /\ exists bs t, chain r (bank_chain r a) bs t) (map lo_addr Ls)).
  { rewrite Forall_map. eapply Forall_impl; [|exact HLs]. intros L [[A0 A1] A2 (bs & t & Hch & _) _ _ _]. split; [|eauto].
    split; [exact A0|]. split; [exact A1|]. intros a Ha. apply A2. exact Ha. }
  split; [exact D1|]. split.
  - unfold is_image. apply Forall_forall. intros v Hv. apply In_nth_error in Hv. destruct Hv as [n Hn].
    assert (Eb : byte d (Z.of_nat n) = v) by (unfold byte; rewrite Nat2Z.id; apply nth_error_nth; exact Hn).
    destruct (kept_dec r (map lo_addr Ls) (Z.of_nat n) HC) as [K|K].
    + rewrite D4 in Eb by (try lia; exact K). subst v. apply byte_u8. exact Hr.
    + rewrite D3 in Eb by (try lia; exact K). subst v. unfold u8. lia.
  - apply Forall_forall. intros L HL. rewrite Forall_forall in HLs. specialize (HLs L HL).
    apply (layout_same P r d L Hr); [|intros x Hx Hfr; apply Hx; exists (lo_addr L); split; [apply in_map; exact HL|]|exact HLs].
    + split; [exact D1|]. intros a Ha Hn. apply D4; [exact Ha|]. destruct (kept_dec r (map lo_addr Ls) a HC) as [K|K]; [exact K|]. exfalso. apply Hn. exact K.
    + destruct HLs as [_ _ (bs & t & Hch & E & _) _ _ _]. destruct Hfr as [Hp|(b0 & Hb & Hx0)]; [left; exact Hp|right].
      exists bs, t. split; [exact Hch|]. exists b0. split; [rewrite E; exact Hb|exact Hx0].
Qed.
Lemma dummy_build b verbose conv m Ls sss r d r' n : banks_fit b conv 0 0 m Ls sss -> is_image r -> Forall (layout_ok r) Ls -> ForallOrdPairs independent Ls ->
  Rom.fake_image b r (map lo_addr Ls) = Ok d -> (length r <= n)%nat ->
  Rom.rom_write b verbose m r true (map lo_addr Ls) conv (Rom.Wrote n) = (Ok tt, r') ->
  exists d', Rom.rom_write b verbose m d true (map lo_addr Ls) conv (Rom.Wrote n) = (Ok tt, d') /\ same_changes r r' d d'.
Proof.
  intros HB Hr HLs HI HD Hn HW. destruct (dummy_layouts b r d Ls Hr HLs HD) as (D1 & D2 & D3).
  apply good_write in HW; [|exact Hn]. destruct HW as [HW HL].
  destruct (banks_moves b verbose conv (map lo_addr Ls) 0%nat 0%nat m Ls sss HB r d r' [] eq_refl eq_refl D1 Hr D2 HLs D3 HI HW) as (d' & Hd & M).
  exists d'. split; [|exact M]. unfold Rom.rom_write. rewrite Hd. destruct M as (M1 & M2 & _). unfold Rom.file_overwrite.
  rewrite firstn_all2 by lia. rewrite M2, skipn_all, app_nil_r. reflexivity.
Qed.

Lemma dummy_back b verbose conv m Ls sss r d d' n : banks_fit b conv 0 0 m Ls sss -> is_image r -> Forall (layout_ok r) Ls -> ForallOrdPairs independent Ls ->
  Rom.fake_image b r (map lo_addr Ls) = Ok d -> (length r <= n)%nat ->
  Rom.rom_write b verbose m d true (map lo_addr Ls) conv (Rom.Wrote n) = (Ok tt, d') ->
  exists r', Rom.rom_write b verbose m r true (map lo_addr Ls) conv (Rom.Wrote n) = (Ok tt, r') /\ same_changes r r' d d'.
Proof.
  intros HB Hr HLs HI HD Hn HW. destruct (dummy_layouts b r d Ls Hr HLs HD) as (D1 & D2 & D3).
  apply good_write in HW; [|lia]. destruct HW as [HW HL].
  destruct (banks_moves b verbose conv (map lo_addr Ls) 0%nat 0%nat m Ls sss HB d r d' [] eq_refl eq_refl (eq_sym D1) D2 Hr D3 HLs HI HW) as (r' & Hd & (M1 & M2 & M3)).
  exists r'. split.
  - unfold Rom.rom_write. rewrite Hd. unfold Rom.file_overwrite. rewrite firstn_all2 by lia. rewrite M2, skipn_all, app_nil_r. reflexivity.
  - split; [exact M2|]. split; [exact M1|]. intros k. destruct (M3 k) as [E|[E1 E2]]; [left; symmetry; exact E|right; split; assumption].
Qed.
Lemma dummy_both b verbose conv m Ls sss r d n : banks_fit b conv 0 0 m Ls sss -> is_image r -> Forall (layout_ok r) Ls -> ForallOrdPairs independent Ls ->
  Rom.fake_image b r (map lo_addr Ls) = Ok d -> (length r <= n)%nat ->
  (forall r', Rom.rom_write b verbose m r true (map lo_addr Ls) conv (Rom.Wrote n) = (Ok tt, r') ->
    exists d', Rom.rom_write b verbose m d true (map lo_addr Ls) conv (Rom.Wrote n) = (Ok tt, d') /\ same_changes r r' d d') /\
  (forall d', Rom.rom_write b verbose m d true (map lo_addr Ls) conv (Rom.Wrote n) = (Ok tt, d') ->
    exists r', Rom.rom_write b verbose m r true (map lo_addr Ls) conv (Rom.Wrote n) = (Ok tt, r') /\ same_changes r r' d d').
Proof. intros HB Hr HLs HI HD Hn. split; intros x Hx; [eapply dummy_build|eapply dummy_back]; eassumption. Qed.

(** ** Concrete cases *)
Definition ex_converted : option song :=
  match midi_read Debug good_file true id_order with
  | Ok h => match song_from_midi Debug (h_voices h) (h_ticks_per_beat h) (h_max_time h) DEFAULT_TEMPO_ADJUST true with Ok s => Some s | _ => None end
  | _ => None
  end.
Definition ex_tools : tools :=
  mk_tools (fun _ => (good_file, true)) (fun _ => match ex_converted with Some s => Some (song_to_json s) | None => None end) (fun _ => [123; 125]).
Definition ex_files : files := store (store (fun _ => None) "a.mid"%string [77; 84]) "rom.sfc"%string (repeat 0 2400).
Definition ex_os : os := mk_os (fun _ => true) (fun _ => true) (Rom.Wrote 2400) None.
Definition ex_flags : flags := mk_flags false false.
Lemma ex_song_value : exists s, song_from_midi_file Debug (world_of ex_tools ex_files) id_order true "a.mid"%string DEFAULT_TEMPO_ADJUST = Ok s /\ ex_converted = Some s /\ length (tracks s) = 3%nat.
Proof. eexists. split; [vm_compute; reflexivity|]. split; vm_compute; reflexivity. Qed.
Lemma ex_json : readable_midi ex_tools ex_files "a.mid" /\
  (forall s, song_from_midi_file Debug (world_of ex_tools ex_files) id_order true "a.mid"%string DEFAULT_TEMPO_ADJUST = Ok s -> text_kept ex_tools s) /\
  run Debug ex_tools id_order ex_os ex_flags (CMidi2Json "a.mid" "b.json") ex_files = (Ok tt, store ex_files "b.json"%string [123; 125]).
Proof.
  destruct ex_song_value as (s & H1 & H2 & H3). split; [|split].
  - exists [77; 84], good_file, true. split; [reflexivity|]. split; [reflexivity|]. split; [exact good_typed|]. split; [exact good_file_ok|].
    assert (H : forallb (forallb (fun m => match m with
      | MidiEvent _ (NoteOn _ k v) | MidiEvent _ (NoteOff _ k v) => (0 <=? k) && (k <? 128) && (0 <=? v) && (v <? 128)
      | MidiEvent _ (ControlChange _ c v) => (0 <=? c) && (c <? 128) && (0 <=? v) && (v <? 128)
      | MidiEvent _ (ProgramChange _ p) => (0 <=? p) && (p <? 128)
      | MetaEvent _ SetTempo data => Nat.leb 3 (length data)
      | _ => true end)) (tracks_of good_file) = true) by reflexivity.
    apply Forall_forall. intros tr Htr. rewrite forallb_forall in H. specialize (H tr Htr). rewrite forallb_forall in H.
    apply Forall_forall. intros m Hm. specialize (H m Hm). destruct m as [d0 ev data|d0 ev| |]; try exact I; (destruct ev; try exact I; unfold midi_valid; lia).
  - intros s' E. rewrite H1 in E. injection E as <-. split; [rewrite H3; reflexivity|]. unfold ex_tools. cbn [parse_json print_json]. rewrite H2. reflexivity.
  - cbn [run]. unfold run_midi2json, midi2json. change (negb (skip_optimization ex_flags)) with true. rewrite H1. reflexivity.
Qed.
Lemma ex_leftover : exists f', run Debug ex_tools id_order failing_os ex_flags (CGenFakeRom "rom.sfc" "out.sfc") ex_files = (Err EIo, f') /\
  ex_files "out.sfc"%string = None /\ f' "out.sfc"%string = Some [].
Proof.
  assert (H : exists d, Rom.fake_image Debug (repeat 0 2400) Rom.DEFAULT_BANK_BASE_ADDRS = Ok d) by (eexists; vm_compute; reflexivity).
  destruct H as [d Hd]. exists (store ex_files "out.sfc"%string []). split; [|split; reflexivity].
  cbn [run]. unfold run_gen_fake_rom. change (ex_files "rom.sfc"%string) with (Some (repeat 0 2400)). cbv iota beta. rewrite Hd.
  unfold Rom.gen_fake_rom. rewrite Hd. reflexivity.
Qed.
Lemma ex_partial_json : exists f', run Debug ex_tools id_order (mk_os (fun _ => true) (fun _ => true) Rom.WriteFailed (Some 1%nat)) ex_flags (CMidi2Json "a.mid" "b.json") ex_files = (Panic PUnwrap, f') /\
  ex_files "b.json"%string = None /\ f' "b.json"%string = Some [123].
Proof.
  destruct ex_song_value as (s & H1 & _). exists (store ex_files "b.json"%string [123]). split; [|split; reflexivity].
  cbn [run]. unfold run_midi2json, midi2json. change (negb (skip_optimization ex_flags)) with true. rewrite H1. reflexivity.
Qed.
Lemma ex_dummy : exists d r', Rom.fake_image Debug ex_rom (map lo_addr ex_layouts) = Ok d /\ d <> ex_rom /\
  Rom.rom_write Debug true ex_banks ex_rom true (map lo_addr ex_layouts) ex_conv (Rom.Wrote (length ex_rom)) = (Ok tt, r') /\ r' <> ex_rom.
Proof. destruct ex_again as (r' & H1 & H2). eexists. exists r'. split; [vm_compute; reflexivity|]. split; [vm_compute; discriminate|]. split; assumption. Qed.
