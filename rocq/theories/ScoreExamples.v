(** ScoreExamples.v: songs given as JSON files: one with loop calls, one with running lengths, one with two parts (for C67). *)
From Coq Require Import ZArith List Bool Lia ZifyBool ZifyNat String.
From Verif Require Import Base ProofLib F32 Messages Command Track SeqTree Song Paths Manifest Midi Json Cli Rom SpecVoices SpecLoop
  SpecNspc SpecRom SpecBank SpecAram SpecPlayback SpecConsole SpecScore RomBanks RomExamples MidiExamples ConsoleProofs ScoreProofs.
Ltac Zify.zify_post_hook ::= Z.div_mod_to_equations.
Open Scope Z_scope.
Open Scope list_scope.

Definition score_note (d k : Z) : pcmd := mk_pcmd (Some d) (Some 12) (Some 7) (Note k).
Definition score_song : song := mk_song [[0; 1]%nat]
  [ [mk_pcmd None None None (SetInstrument 3); score_note 24 0xa4; mk_pcmd (Some 0) (Some 0) (Some 0) (CallLoop 2 5); score_note 12 0xa5];
    [score_note 48 0x9c]; [score_note 6 0xb0; score_note 6 0xb1] ].
Definition running_song : song := mk_song [[0%nat]]
  [ [score_note 24 0xa4; mk_pcmd None None None (Note 0xa6); mk_pcmd None None None Rest; mk_pcmd (Some 6) None (Some 3) (Note 0xa7)] ].
Definition parts_song : song := mk_song [[0]; [1]]%nat [ [score_note 24 0xa4]; [score_note 24 0xa5] ].
Definition score_file (p : path) : option json :=
  if (p =? "score.json")%string then Some (song_to_json score_song)
  else if (p =? "running.json")%string then Some (song_to_json running_song) else Some (song_to_json parts_song).
Definition score_world : world := mk_world (fun _ => ([], false)) score_file.
Definition score_slots : list song_def :=
  [mk_song_def (Some "score.json"%string) f32_0_3 true; mk_song_def (Some "running.json"%string) f32_0_3 false; mk_song_def (Some "parts.json"%string) f32_0_3 false].
Definition score_bank : bank := mk_bank "a"%string score_slots.
Definition score_layout : layout := ex_layout 0x8000 40.
Lemma score_reads : from_json (json_file score_world "score.json"%string) = Ok score_song.
Proof. vm_compute. reflexivity. Qed.
Lemma running_reads : from_json (json_file score_world "running.json"%string) = Ok running_song.
Proof. vm_compute. reflexivity. Qed.
Lemma parts_reads : from_json (json_file score_world "parts.json"%string) = Ok parts_song.
Proof. vm_compute. reflexivity. Qed.

Definition encode_ok (s : song) : bool :=
  forallb (fun i => match write_track s [] i [] with Ok _ => true | _ => false end) (seq 0 (length (tracks s))).
Lemma encode_encodes s : encode_ok s = true -> encodes s (encode s).
Proof.
  intros H. split; [unfold encode; now rewrite map_length, seq_length|]. intros i d E. unfold encode in E. rewrite nth_error_map in E.
  destruct (nth_error (seq 0 (length (tracks s))) i) as [k|] eqn:Ek; [|discriminate]. cbn in E. pose proof (nth_error_In _ _ Ek) as Hin. unfold encode_ok in H. rewrite forallb_forall in H. specialize (H k Hin).
  pose proof (nth_error_nth _ _ 0%nat Ek) as En. assert (Hi : (i < length (tracks s))%nat) by (rewrite <- (seq_length (length (tracks s)) 0); apply nth_error_Some; congruence).
  rewrite seq_nth in En by exact Hi. cbn in En. subst k. destruct (write_track s [] i []) as [d'| | |]; try discriminate. now injection E as <-.
Qed.
Definition ready_b (s : song) : bool :=
  encode_ok s && match parts s with p :: _ => Nat.leb (length p) 8 | [] => true end &&
  forallb (fun d => forallb (fun v => (0 <=? v) && (v <? 256)) (fst d)) (encode s).
Lemma ready_b_ok s : ready_b s = true -> song_ready s (encode s).
Proof.
  unfold ready_b. rewrite !andb_true_iff. intros [[H1 H3] H4]. split; [now apply encode_encodes|]. split.
  - intros part E. destruct (parts s); [discriminate|]. injection E as ->. now apply Nat.leb_le.
  - apply Forall_forall. intros d Hd. rewrite forallb_forall in H4. apply (image_dec (fst d)). now apply H4.
Qed.
Definition score_enc : list (list Z * list call_loop_ref) := Eval vm_compute in encode score_song.
Definition running_enc : list (list Z * list call_loop_ref) := Eval vm_compute in encode running_song.
Definition parts_enc : list (list Z * list call_loop_ref) := Eval vm_compute in encode parts_song.
Lemma score_fit b opt : banks_fit b (converter b score_world id_order opt) 0 0 [score_bank] [score_layout] [[score_song; running_song; parts_song]].
Proof.
  eapply (banks_fit_cons _ _ _ _ 0xd036 _ _ _ [(true, score_enc); (false, running_enc); (false, parts_enc)]); [reflexivity| |constructor].
  constructor.
  - apply (loaded_cons _ _ (mk_song_def (Some "score.json"%string) f32_0_3 true)); [exact score_reads|exact (ready_b_ok score_song eq_refl)|].
    apply (loaded_cons _ _ (mk_song_def (Some "running.json"%string) f32_0_3 false)); [exact running_reads|exact (ready_b_ok running_song eq_refl)|].
    apply (loaded_cons _ _ (mk_song_def (Some "parts.json"%string) f32_0_3 false)); [exact parts_reads|exact (ready_b_ok parts_song eq_refl)|]. constructor.
  - cbn. lia.
  - cbn. lia.
  - apply songs_stayb_ok. vm_compute. reflexivity.
Qed.
Lemma score_written b opt : exists r', rom_write b true [score_bank] ex_rom true (map lo_addr [score_layout]) (converter b score_world id_order opt) (Wrote (length ex_rom)) = (Ok tt, r').
Proof. eexists. destruct b, opt; vm_compute; reflexivity. Qed.
Lemma score_layouts : Forall (layout_ok ex_rom) [score_layout] /\ ForallOrdPairs independent [score_layout].
Proof. split; [apply Forall_cons; [apply ex_layout_in; auto|apply Forall_nil]|]. apply FOP_cons; [apply Forall_nil|apply FOP_nil]. Qed.

(** ** The songs meet the conditions *)
Lemma score_parts : song_parts score_song [0; 1]%nat.
Proof. split; [reflexivity|]. intros p [<-|[]]. split; [discriminate|]. repeat constructor; cbn; lia. Qed.
Lemma running_parts : song_parts running_song [0%nat].
Proof. split; [reflexivity|]. intros p [<-|[]]. split; [discriminate|]. repeat constructor; cbn; lia. Qed.
Lemma parts_parts : song_parts parts_song [0%nat].
Proof. split; [reflexivity|]. intros p [<-|[<-|[]]]; (split; [discriminate|]); repeat constructor; cbn; lia. Qed.
Lemma note_free d k : forall t n, cmd (score_note d k) <> CallLoop t n. Proof. intros t n H. discriminate H. Qed.
Lemma score_calls : song_calls score_song.
Proof.
  intros tr pc t k Htr Hpc E. cbn in Htr. destruct Htr as [<-|[<-|[<-|[]]]]; cbn in Hpc.
  - destruct Hpc as [<-|[<-|[<-|[<-|[]]]]]; try discriminate E. injection E as <- <-. exists [score_note 6 0xb0; score_note 6 0xb1]. split; [reflexivity|]. split; [discriminate|].
    split; [repeat constructor; apply note_free|]. intros p [<-|[]] H. cbn in H. lia.
  - destruct Hpc as [<-|[]]; discriminate E.
  - destruct Hpc as [<-|[<-|[]]]; discriminate E.
Qed.
Lemma score_note_playable d k : 1 <= d <= 127 -> 0x80 <= k <= 0xc7 -> playable (score_note d k).
Proof. intros H1 H2. split; [repeat split; cbn; unfold u8; lia|]. intros _. cbn. replace (0 <? d) with true by lia. discriminate. Qed.
Lemma score_note_full d k : full (score_note d k). Proof. intros _. split; discriminate. Qed.
Lemma score_playable : Forall (fun tr : track => Forall playable tr) (tracks score_song).
Proof.
  repeat (apply Forall_cons || apply Forall_nil); try (apply score_note_playable; lia).
  - split; [repeat split; cbn; auto; repeat constructor; lia|]. intros [H|[H|[H|H]]]; try discriminate H; now destruct H.
  - cbn. repeat split; lia.
Qed.
Lemma score_full : Forall (fun tr : track => Forall full tr) (tracks score_song).
Proof.
  repeat (apply Forall_cons || apply Forall_nil); try apply score_note_full; intros [H|[H|H]]; try discriminate H; now destruct H.
Qed.
Lemma one_byte_safe song tr v : Forall (fun t : track => last_byte t = None \/ last_byte t = Some v) song -> Forall (fun pc => vs_byte pc = None \/ vs_byte pc = Some v) tr -> velocity_safe song tr.
Proof.
  intros Hs Ht x n1 mid n2 y -> Hn1 _ _ pc t k body _ _ Hb. rewrite Forall_forall in Ht. assert (Hi : In n1 (x ++ n1 :: mid ++ n2 :: y)) by (apply in_app_iff; right; now left).
  destruct (Ht n1 Hi) as [E|E]; [congruence|]. rewrite E. rewrite Forall_forall in Hs. apply Hs. eapply nth_error_In, Hb.
Qed.
Lemma score_safe : Forall (fun i => forall tr, nth_error (tracks score_song) i = Some tr -> velocity_safe (tracks score_song) tr) [0; 1]%nat.
Proof.
  assert (H : forall tr, In tr (tracks score_song) -> velocity_safe (tracks score_song) tr).
  { intros tr Hin. apply (one_byte_safe _ _ 124); [repeat (constructor; [cbn; auto|]); constructor|].
    cbn in Hin. destruct Hin as [<-|[<-|[<-|[]]]]; repeat (constructor; [cbn; auto|]); constructor. }
  apply Forall_forall. intros i _ tr Htr. apply H. eapply nth_error_In, Htr.
Qed.
Lemma running_wf : Forall (fun i => forall tr, nth_error (tracks running_song) i = Some tr -> loop_free tr /\ well_formed tr) [0%nat].
Proof.
  constructor; [|constructor]. intros tr [= <-]. split.
  - repeat (constructor; [intros t n H; discriminate H|]). constructor.
  - repeat (split; [repeat split; cbn; unfold u8; lia|]; split; [intros _; reflexivity|]). exact I.
Qed.
Lemma parts_wf : Forall (fun i => forall tr, nth_error (tracks parts_song) i = Some tr -> loop_free tr /\ well_formed tr) [0%nat].
Proof.
  constructor; [|constructor]. intros tr [= <-]. split.
  - repeat (constructor; [intros t n H; discriminate H|]). constructor.
  - repeat (split; [repeat split; cbn; unfold u8; lia|]; split; [intros _; reflexivity|]). exact I.
Qed.

(** ** Only the first part is played *)
Lemma first_part_only b opt : exists r' a ess,
  rom_write b true [score_bank] ex_rom true (map lo_addr [score_layout]) (converter b score_world id_order opt) (Wrote (length ex_rom)) = (Ok tt, r') /\
  from_json (json_file score_world "parts.json"%string) = Ok parts_song /\ parts parts_song = [[0]; [1]]%nat /\
  nth_error (tracks parts_song) 1 = Some [score_note 24 0xa5] /\
  holds (aram r' (lo_blocks score_layout)) (0xd000 + 2 * 2) a /\ stops (aram r' (lo_blocks score_layout)) a /\
  song_plays (aram r' (lo_blocks score_layout)) a ess /\ forall es e, In es ess -> In e es -> ev_token e <> TNote 0xa5.
Proof.
  destruct (score_written b opt) as [r' Hw]. destruct score_layouts as [HL HI].
  destruct (json_exact b true opt score_world id_order [score_bank] [score_layout] _ ex_rom true (length ex_rom) r' 0 score_bank score_layout 2
    (mk_song_def (Some "parts.json"%string) f32_0_3 false) "parts.json"%string parts_song [0%nat] (score_fit b opt) ex_image HL HI Hw (le_n _) eq_refl eq_refl con_free eq_refl eq_refl
    ltac:(vm_compute; discriminate) parts_reads parts_parts parts_wf) as (a & ess & Ha & Haf & Hpl & Hl & Hv).
  exists r', a, ess. split; [exact Hw|]. split; [exact parts_reads|]. split; [reflexivity|]. split; [reflexivity|]. split; [exact Ha|]. split; [exact Haf|]. split; [exact Hpl|].
  intros es e Hes He Et. apply In_nth_error in Hes. destruct Hes as [k Hk]. specialize (Hv k es Hk). destruct k as [|k]; cbn [nth_error] in Hv.
  - destruct Hv as (tr & Htr & Hv). injection Htr as <-. destruct Hv as [[Hv _]|(_ & pre & (F & _) & ->)]; [discriminate|].
    rewrite (F ltac:(exists []; now left)) in He. cbn in He. repeat (destruct He as [<-|He]; [discriminate Et|]). destruct He.
  - replace (nth_error (@nil nat) k) with (@None nat) in Hv by (destruct k; reflexivity). subst es. destruct He.
Qed.
