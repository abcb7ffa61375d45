(** BuildProofs.v: the overflow-checked build and the release build agree (C46). *)
From Coq Require Import String.
From Verif Require Import Base ProofLib F32 Messages Command Track SeqTree Song Paths Manifest Midi Json Cli SpecBuild.
From Verif Require Rom.
Open Scope list_scope.

Lemma agrees_refl {A} (x : outcome A) : same_unless_overflow x x. Proof. right. reflexivity. Qed.
Lemma agrees_bind {A B} (x y : outcome A) (f g : A -> outcome B) :
  same_unless_overflow x y -> (forall a, same_unless_overflow (f a) (g a)) -> same_unless_overflow (bind x f) (bind y g).
Proof. intros [->| ->] H; [left; reflexivity|]. destruct y as [a| | |]; cbn [bind]; [apply H|right; reflexivity..]. Qed.
Lemma agrees_fold {A S} (f g : S -> A -> outcome S) l : (forall s a, same_unless_overflow (f s a) (g s a)) -> forall s, same_unless_overflow (ofold f l s) (ofold g l s).
Proof. intros H. induction l as [|a l IH]; intros s; cbn [ofold]; [apply agrees_refl|]. apply agrees_bind; [apply H|exact IH]. Qed.
Lemma agrees_map {A B} (f g : A -> outcome B) l : (forall a, same_unless_overflow (f a) (g a)) -> same_unless_overflow (omap f l) (omap g l).
Proof. intros H. induction l as [|a l IH]; cbn [omap]; [apply agrees_refl|]. apply agrees_bind; [apply H|]. intros y. apply agrees_bind; [exact IH|]. intros; apply agrees_refl. Qed.
Lemma agrees_arith bits x : same_unless_overflow (arith Debug bits x) (arith Release bits x).
Proof. unfold arith. destruct (_ && _); [right; reflexivity|left; reflexivity]. Qed.

Create HintDb ag.
#[export] Hint Resolve agrees_refl agrees_arith : ag.
Ltac ag1 := first
  [ solve [auto with ag nocore]
  | match goal with
    | |- same_unless_overflow (bind _ _) (bind _ _) => apply agrees_bind; [|intros ?]
    | |- same_unless_overflow (ofold _ _ _) (ofold _ _ _) => apply agrees_fold; intros ? ?
    | |- same_unless_overflow (omap _ _) (omap _ _) => apply agrees_map; intros ?
    | |- same_unless_overflow (let '(_, _) := ?x in _) _ => destruct x
    | |- same_unless_overflow (if ?x then _ else _) (if ?x then _ else _) => destruct x
    | |- same_unless_overflow (match ?x with _ => _ end) (match ?x with _ => _ end) => destruct x
    end ].
Ltac ag := cbv zeta; repeat (ag1; cbv zeta).

(** Tracks. *)
Lemma ag_get_duration t tpb c : same_unless_overflow (get_duration Debug t tpb c) (get_duration Release t tpb c).
Proof. unfold get_duration. ag. Qed.
#[export] Hint Resolve ag_get_duration : ag.
Lemma ag_insert_rest c l a t : same_unless_overflow (insert_rest Debug c l a t) (insert_rest Release c l a t).
Proof. unfold insert_rest. ag. Qed.
#[export] Hint Resolve ag_insert_rest : ag.
Lemma ag_push_slide s c n t : same_unless_overflow (push_slide Debug s c n t) (push_slide Release s c n t).
Proof. unfold push_slide. ag. Qed.
#[export] Hint Resolve ag_push_slide : ag.
Lemma ag_track_step tpb tf s e : same_unless_overflow (track_step Debug tpb tf s e) (track_step Release tpb tf s e).
Proof. unfold track_step, on_note_off, on_note_on, on_control_change, on_program_change. ag. Qed.
#[export] Hint Resolve ag_track_step : ag.
Lemma ag_track_new ev tpb mt tf : same_unless_overflow (track_new Debug ev tpb mt tf) (track_new Release ev tpb mt tf).
Proof. unfold track_new. ag. Qed.
#[export] Hint Resolve ag_track_new : ag.

(** The optimiser. *)
Lemma ag_add_location ls ti ci n : same_unless_overflow (add_location Debug ls ti ci n) (add_location Release ls ti ci n).
Proof. induction ls; cbn [add_location]; ag. Qed.
#[export] Hint Resolve ag_add_location : ag.
Lemma ag_split_node ec o n k : same_unless_overflow (split_node Debug ec o n k) (split_node Release ec o n k).
Proof. unfold split_node. ag. Qed.
#[export] Hint Resolve ag_split_node : ag.
Lemma ag_add_commands fuel : forall t c ti ss sl, same_unless_overflow (add_commands fuel Debug t c ti ss sl) (add_commands fuel Release t c ti ss sl).
Proof. induction fuel as [|fuel IH]; intros; cbn [add_commands]; ag. Qed.
#[export] Hint Resolve ag_add_commands : ag.
Lemma ag_add_track t tr ti : same_unless_overflow (add_track Debug t tr ti) (add_track Release t tr ti).
Proof. unfold add_track. ag. Qed.
#[export] Hint Resolve ag_add_track : ag.
Lemma ag_build_tree trs : forall t i, same_unless_overflow (build_tree Debug t trs i) (build_tree Release t trs i).
Proof. induction trs as [|tr trs IH]; intros; cbn [build_tree]; ag. Qed.
#[export] Hint Resolve ag_build_tree : ag.
Lemma ag_consolidate ls : forall acc n, same_unless_overflow (consolidate_from Debug acc ls n) (consolidate_from Release acc ls n).
Proof. induction ls as [|l ls IH]; intros; cbn [consolidate_from]; ag. Qed.
Lemma ag_consolidate' ls n : same_unless_overflow (consolidate_locations Debug ls n) (consolidate_locations Release ls n).
Proof. apply ag_consolidate. Qed.
#[export] Hint Resolve ag_consolidate' : ag.
Fixpoint ag_sequences (t : tree) : forall p, same_unless_overflow (sequences Debug p t) (sequences Release p t).
Proof.
  destruct t as [es ls]. intros p. cbn [sequences].
  induction es as [|[ec [t'|]] es IH]; [apply agrees_refl| |apply agrees_refl]. cbv zeta.
  apply agrees_bind; [auto with ag|]. intros ls'. apply agrees_bind; [apply ag_sequences|]. intros sub.
  apply agrees_bind; [exact IH|]. intros; apply agrees_refl.
Qed.
#[export] Hint Resolve ag_sequences : ag.
Lemma ag_keep s : same_unless_overflow (keep_sequence Debug s) (keep_sequence Release s).
Proof. unfold keep_sequence, total_repeats_u8. ag. Qed.
#[export] Hint Resolve ag_keep : ag.
Lemma ag_score s : same_unless_overflow (score Debug s) (score Release s).
Proof. unfold score. ag. Qed.
#[export] Hint Resolve ag_score : ag.
Lemma ag_best_of ss : forall o, same_unless_overflow (best_of Debug o ss) (best_of Release o ss).
Proof. induction ss as [|s ss IH]; intros; cbn [best_of]; ag. Qed.
#[export] Hint Resolve ag_best_of : ag.
Lemma ag_best t : same_unless_overflow (best_sequence Debug t) (best_sequence Release t).
Proof. unfold best_sequence. ag. Qed.
#[export] Hint Resolve ag_best : ag.
Lemma ag_optimize_fuel fuel : forall trs n, same_unless_overflow (optimize_fuel fuel Debug trs n) (optimize_fuel fuel Release trs n).
Proof. induction fuel as [|fuel IH]; intros; cbn [optimize_fuel]; ag. Qed.
Lemma ag_optimize trs n : same_unless_overflow (optimize_call_loops Debug trs n) (optimize_call_loops Release trs n).
Proof. apply ag_optimize_fuel. Qed.
#[export] Hint Resolve ag_optimize : ag.
Lemma ag_convert_voices tpb mt tf vs : same_unless_overflow (convert_voices Debug vs tpb mt tf) (convert_voices Release vs tpb mt tf).
Proof. induction vs as [|v vs IH]; cbn [convert_voices]; ag. Qed.
#[export] Hint Resolve ag_convert_voices : ag.
Lemma ag_song_from_midi vs tpb mt tf o : same_unless_overflow (song_from_midi Debug vs tpb mt tf o) (song_from_midi Release vs tpb mt tf o).
Proof. unfold song_from_midi. ag. Qed.
#[export] Hint Resolve ag_song_from_midi : ag.
Lemma ag_song_empty : same_unless_overflow (song_empty Debug) (song_empty Release).
Proof. unfold song_empty. ag. Qed.
#[export] Hint Resolve ag_song_empty : ag.

(** The MIDI reader. *)
Lemma ag_distribute_track chs tr : same_unless_overflow (distribute_track Debug chs tr) (distribute_track Release chs tr).
Proof. unfold distribute_track. apply agrees_bind; [|intros; apply agrees_refl]. apply agrees_fold. intros [c t] m. unfold distribute_message. ag. Qed.
#[export] Hint Resolve ag_distribute_track : ag.
Lemma ag_tracks_to_channels ts : same_unless_overflow (tracks_to_channels Debug ts) (tracks_to_channels Release ts).
Proof. unfold tracks_to_channels. ag. Qed.
#[export] Hint Resolve ag_tracks_to_channels : ag.
Lemma ag_all_intervals chs : forall i mx, same_unless_overflow (all_intervals Debug chs i mx) (all_intervals Release chs i mx).
Proof. induction chs as [|ch chs IH]; intros; cbn [all_intervals]; [apply agrees_refl|]. ag. unfold interval_step. ag. Qed.
#[export] Hint Resolve ag_all_intervals : ag.
Lemma ag_midi_read cbs c o : same_unless_overflow (midi_read Debug cbs c o) (midi_read Release cbs c o).
Proof. unfold midi_read. ag. Qed.
#[export] Hint Resolve ag_midi_read : ag.
Lemma ag_song_from_midi_file w o opt p tf : same_unless_overflow (song_from_midi_file Debug w o opt p tf) (song_from_midi_file Release w o opt p tf).
Proof. unfold song_from_midi_file. ag. Qed.
#[export] Hint Resolve ag_song_from_midi_file : ag.
Lemma ag_converter w o opt p tf : same_unless_overflow (converter Debug w o opt p tf) (converter Release w o opt p tf).
Proof. unfold converter. ag. Qed.
#[export] Hint Resolve ag_converter : ag.
Lemma ag_midi2json w o opt p : same_unless_overflow (midi2json Debug w o opt p) (midi2json Release w o opt p).
Proof. unfold midi2json. ag. Qed.

(** The ROM writer, with converters that agree. *)
Lemma ag_bank_start r a : same_unless_overflow (Rom.bank_start Debug r a) (Rom.bank_start Release r a).
Proof. unfold Rom.bank_start. ag. Qed.
#[export] Hint Resolve ag_bank_start : ag.
Lemma ag_find_blocks r a : same_unless_overflow (Rom.find_blocks Debug r a) (Rom.find_blocks Release r a).
Proof. unfold Rom.find_blocks. ag. Qed.
#[export] Hint Resolve ag_find_blocks : ag.
Lemma ag_verbose_sub v x y : same_unless_overflow (Rom.verbose_sub Debug v x y) (Rom.verbose_sub Release v x y).
Proof. unfold Rom.verbose_sub. ag. Qed.
#[export] Hint Resolve ag_verbose_sub : ag.
Lemma ag_one_track v bl so sd st i : same_unless_overflow (Rom.write_one_track Debug v bl so sd st i) (Rom.write_one_track Release v bl so sd st i).
Proof.
  unfold Rom.write_one_track. cbv zeta. apply agrees_bind; [auto with ag|]. intros [data refs]. apply agrees_bind; [|intros [[? ?] ?]; apply agrees_refl]. ag.
Qed.
#[export] Hint Resolve ag_one_track : ag.
Lemma ag_write_song v bl st lp sd : same_unless_overflow (Rom.write_song Debug v bl st lp sd) (Rom.write_song Release v bl st lp sd).
Proof. unfold Rom.write_song. cbv zeta. apply agrees_bind; [unfold Rom.reserve_header; ag|]. intros st1. ag. Qed.
#[export] Hint Resolve ag_write_song : ag.
Definition conv_agree (c d : path -> f32 -> outcome song) : Prop := forall p t, same_unless_overflow (c p t) (d p t).
Lemma ag_write_bank v bk r ba fa first c d : conv_agree c d -> same_unless_overflow (Rom.write_bank Debug v bk r ba fa first c) (Rom.write_bank Release v bk r ba fa first d).
Proof.
  intros H. unfold Rom.write_bank. apply agrees_bind; [auto with ag|]. intros bl. apply agrees_bind; [|intros; apply agrees_refl].
  apply agrees_fold. intros st sd. unfold Rom.write_song_def. apply agrees_bind; [apply agrees_refl|]. intros _.
  apply agrees_bind; [|intros s; auto with ag]. unfold Rom.load_song. destruct (input sd); [apply H|auto with ag].
Qed.
Lemma ag_write_banks v c d addrs : conv_agree c d -> forall bks i first r, same_unless_overflow (Rom.write_banks Debug v bks i first r addrs c) (Rom.write_banks Release v bks i first r addrs d).
Proof.
  intros H. induction bks as [|bk bks IH]; intros i first r; cbn [Rom.write_banks]; [apply agrees_refl|]. apply agrees_bind; [apply agrees_refl|]. intros ba.
  apply agrees_bind; [apply agrees_refl|]. intros fa. apply agrees_bind; [apply ag_write_bank; exact H|]. intros r'. apply IH.
Qed.
Lemma ag_rom_write v m file op addrs c d os : conv_agree c d ->
  same_file_unless_overflow file (Rom.rom_write Debug v m file op addrs c os) (Rom.rom_write Release v m file op addrs d os).
Proof.
  intros H. unfold Rom.rom_write. destruct op; [|right; reflexivity].
  destruct (ag_write_banks v c d addrs H m 0 0 file) as [E|E]; rewrite E; [left; reflexivity|right; reflexivity].
Qed.
Lemma converters_agree w o opt : conv_agree (converter Debug w o opt) (converter Release w o opt).
Proof. intros p t. apply ag_converter. Qed.
Lemma ag_build_rom v opt w o mp par rom op addrs os :
  same_file_unless_overflow rom (build_rom Debug v opt w o mp par rom op addrs os) (build_rom Release v opt w o mp par rom op addrs os).
Proof.
  unfold build_rom. destruct (json_file w mp); [|right; reflexivity]. destruct (manifest_new _ _); [|right; reflexivity..].
  apply ag_rom_write, converters_agree.
Qed.
Lemma ag_all_overworld v opt w o inp rom op addrs os :
  same_file_unless_overflow rom (write_all_overworld Debug v opt w o inp rom op addrs os) (write_all_overworld Release v opt w o inp rom op addrs os).
Proof. apply ag_rom_write, converters_agree. Qed.
Lemma ag_file_select v opt w o inp rom op addrs os :
  same_file_unless_overflow rom (write_file_select Debug v opt w o inp rom op addrs os) (write_file_select Release v opt w o inp rom op addrs os).
Proof. apply ag_rom_write, converters_agree. Qed.
Lemma ag_fake_image r addrs : same_unless_overflow (Rom.fake_image Debug r addrs) (Rom.fake_image Release r addrs).
Proof. unfold Rom.fake_image. apply agrees_fold. intros out a. unfold Rom.fake_bank. ag. Qed.
Lemma ag_gen_fake r addrs old os : same_file_unless_overflow old (Rom.gen_fake_rom Debug r addrs old os) (Rom.gen_fake_rom Release r addrs old os).
Proof. unfold Rom.gen_fake_rom. destruct (ag_fake_image r addrs) as [E|E]; rewrite E; [left; reflexivity|right; reflexivity]. Qed.
