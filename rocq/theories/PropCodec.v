(** PropCodec.v: properties C01-C04 and C47 (command encoding, track streams, loop references,
    sustain folding, track framing). Specification: SpecNspc.v. *)
From Coq Require Import ZArith List.
From Verif Require Import Base Command Track Song SpecNspc CodecProofs FrameProofs.

(** C01. The bytes appended for a command decode to that command's opcode and parameters, leaving
    exactly the following bytes, if and only if the driver understands the command ([driver_ok]:
    note bytes 80..C7; never the one-parameter channel volume fade). *)
Theorem C01_command_encoding :
  forall (c : command) (out : list Z) (loops : list call_loop_ref),
  bytes_ok c ->
  exists bs, fst (command_write c out loops) = out ++ bs /\
    ((forall rest, decode_token (bs ++ rest) = Some (token_of c, rest)) <-> driver_ok c).
Proof. exact command_encoding. Qed.
Print Assumptions C01_command_encoding.
Example C01_case : bytes_ok (PitchSlide 3 200 0xff) /\ driver_ok (PitchSlide 3 200 0xff) /\
  ~ driver_ok (Note 0xc8) /\ bytes_ok (Note 0xc8).
Proof. repeat split; try (repeat constructor; fail); try (cbn; unfold u8; lia).
  repeat constructor; lia. Qed.

(** C01, second half: two different commands never have the same bytes, except that the target of a
    CallLoop is not part of its bytes (it is patched into the ROM later). *)
Theorem C01_encoding_injective :
  forall (c c' : command) (out : list Z) (loops loops' : list call_loop_ref),
  driver_ok c -> driver_ok c' ->
  fst (command_write c out loops) = fst (command_write c' out loops') ->
  c = c' \/ exists t t' n, c = CallLoop t n /\ c' = CallLoop t' n.
Proof. exact encoding_injective. Qed.
Print Assumptions C01_encoding_injective.

(** C02. Playing the written bytes of a well-formed command list gives, command by command, the
    command with the duration and quantisation/velocity byte the list prescribes; the bytes after the
    terminator are untouched. *)
Theorem C02_track_stream :
  forall (l : track) (rest : list Z),
  well_formed l ->
  play_stream (fst (track_write l [] []) ++ 0 :: rest) = Some (prescribed l None None, rest).
Proof. exact track_write_plays. Qed.
Print Assumptions C02_track_stream.
Definition C02_example : track :=
  [mk_pcmd None None None (SetInstrument 24); mk_pcmd (Some 24) (Some 12) (Some 7) (Note 0xa4);
   mk_pcmd (Some 24) None None Rest; mk_pcmd (Some 24) (Some 12) (Some 4) (Note 0xa6);
   mk_pcmd (Some 0) (Some 0) (Some 0) (CallLoop 1 2); mk_pcmd (Some 24) (Some 12) (Some 4) (Note 0xa6)].
Example C02_case : well_formed C02_example /\
  fst (track_write C02_example [] []) =
    [0xe0; 24; 24; 0x7c; 0xa4; 0xc9; 24; 0x4c; 0xa6; 0xef; 0; 0xd0; 2; 24; 0xa6].
Proof.
  split; [|reflexivity]. unfold well_formed, C02_example. cbn.
  repeat match goal with
  | |- _ /\ _ => split
  | |- needs_dur _ -> _ => unfold needs_dur; cbn; intuition congruence
  end; try exact I; try lia; repeat constructor; cbn; unfold u8; try lia.
Qed.

(** C03. One relocation per CallLoop, in order, carrying its target; and the position recorded for a
    given CallLoop is the offset of its two-byte operand (the bytes 00 D0 after its EF). *)
Theorem C03_loop_references :
  forall (l : track) (out : list Z) (loops : list call_loop_ref) out' loops',
  track_write l out loops = (out', loops') ->
  (exists refs, loops' = loops ++ refs /\ map target_track refs = map fst (call_loops_of l)) /\
  forall pre pc post t n, l = pre ++ pc :: post -> cmd pc = CallLoop t n ->
  exists before after p,
    out' = before ++ [0xef; 0x00; 0xd0; n] ++ after /\
    before ++ [0xef; 0x00; 0xd0; n] = fst (track_write (pre ++ [pc]) out []) /\
    p = S (length before) /\
    nth_error loops' (length loops + length (call_loops_of pre)) = Some (mk_ref t p).
Proof. exact track_write_refs. Qed.
Print Assumptions C03_loop_references.
Example C03_case : track_write C02_example [1; 2; 3] [] =
  ([1; 2; 3] ++ [0xe0; 24; 24; 0x7c; 0xa4; 0xc9; 24; 0x4c; 0xa6; 0xef; 0; 0xd0; 2; 24; 0xa6],
   [mk_ref 1 13]) /\ call_loops_of C02_example = [(1%nat, 2)].
Proof. split; reflexivity. Qed.

(** C04, the conservation half (legal input durations): a folded note lasts note+rest, only its duration
    and gate change, and its gate is the exact share n/(n+m) in eighths, or 7 when the rest is shorter
    than a sixteenth of the note. A note that is not folded is unchanged and had no exact share.
    Missing: the folded duration need not be a legal duration byte, see [C04_playable_refuted]. *)
Theorem C04_sustain_fold_partial :
  forall n m v s v2 s2 p flag c,
  1 <= n <= 127 -> 1 <= m <= 127 ->
  set_sustain (mk_pcmd (Some n) v s (Note p)) (mk_pcmd (Some m) v2 s2 Rest) = Ok (flag, c) ->
  if flag
  then exists q, c = mk_pcmd (Some (n + m)) v (Some q) (Note p) /\ 0 <= q <= 7 /\
         (q * (n + m) = 8 * n \/ (q = 7 /\ 16 * m < n))
  else c = mk_pcmd (Some n) v s (Note p) /\ n <= 16 * m /\ forall q, q * (n + m) <> 8 * n.
Proof. exact set_sustain_pair. Qed.
Print Assumptions C04_sustain_fold_partial.
Example C04_case : set_sustain (mk_pcmd (Some 5) (Some 9) (Some 7) (Note 0xa4)) (mk_pcmd (Some 3) None None Rest)
  = Ok (true, mk_pcmd (Some 8) (Some 9) (Some 5) (Note 0xa4)).
Proof. reflexivity. Qed.

(** C04, only notes followed by rests are ever changed, and legal durations never crash. *)
Theorem C04_sustain_only_note_rest :
  forall pc next,
  (forall p, cmd pc <> Note p) \/ cmd next <> Rest -> set_sustain pc next = Ok (false, pc).
Proof. exact set_sustain_other. Qed.
Print Assumptions C04_sustain_only_note_rest.
Theorem C04_sustain_total :
  forall n m v s v2 s2 p, 1 <= n <= 127 -> 1 <= m <= 127 ->
  exists flag c, set_sustain (mk_pcmd (Some n) v s (Note p)) (mk_pcmd (Some m) v2 s2 Rest) = Ok (flag, c).
Proof. exact set_sustain_total. Qed.
Print Assumptions C04_sustain_total.

(** C04, the playability half is false of the code: two legal durations (96 and 96) fold into a note
    of duration 192, which is not a legal duration byte; the driver reads it as an extra note C0 and
    takes the gate byte 4F for the duration. *)
Theorem C04_playable_refuted :
  exists n m v s p c,
  1 <= n <= 127 /\ 1 <= m <= 127 /\
  set_sustain (mk_pcmd (Some n) v s (Note p)) (mk_pcmd (Some m) None None Rest) = Ok (true, c) /\
  duration c = Some 192 /\
  play_stream (fst (track_write [c] [] []) ++ [0]) =
    Some ([mk_event (TNote 192) None None; mk_event (TNote p) (Some 79) None], []).
Proof. exact fold_unplayable. Qed.
Print Assumptions C04_playable_refuted.

(** C47. A written non-empty track is the preamble of its place in the song, its commands, a zero
    byte: [fa 19 e5 c8 ed c8] when it opens a part, [ed c8] when it is another track of a part, nothing
    when it is a loop body. Excluded are songs with an empty part before which no part opens with the track. *)
Theorem C47_track_framing :
  forall (s : song) (out : list Z) (ti : nat) (loops : list call_loop_ref) (tr : track),
  nth_error (tracks s) ti = Some tr -> tr <> [] ->
  ~ (exists qs rs, parts s = qs ++ [] :: rs /\ forall rest, ~ In (ti :: rest) qs) ->
  exists pre loops',
    write_track s out ti loops = Ok (out ++ pre ++ fst (track_write tr [] []) ++ [0x00], loops') /\
    loops' = snd (track_write tr (out ++ pre) loops) /\
    ((exists rest, In (ti :: rest) (parts s)) -> pre = [0xfa; 0x19; 0xe5; 0xc8; 0xed; 0xc8]) /\
    ((forall rest, ~ In (ti :: rest) (parts s)) -> (exists p, In p (parts s) /\ In ti p) -> pre = [0xed; 0xc8]) /\
    ((forall p, In p (parts s) -> ~ In ti p) -> pre = []).
Proof. exact write_track_frame_any. Qed.
Print Assumptions C47_track_framing.
(** C47: in those songs, and only in those, writing the track stops the program. *)
Theorem C47_empty_part :
  forall (s : song) (out : list Z) (ti : nat) (loops : list call_loop_ref) (tr : track),
  nth_error (tracks s) ti = Some tr -> tr <> [] ->
  (write_track s out ti loops = Panic PIndex <-> exists qs rs, parts s = qs ++ [] :: rs /\ forall rest, ~ In (ti :: rest) qs).
Proof. exact write_track_blocked. Qed.
Print Assumptions C47_empty_part.
Theorem C47_empty_track :
  forall (s : song) (out : list Z) (ti : nat) (loops : list call_loop_ref),
  nth_error (tracks s) ti = Some [] -> write_track s out ti loops = Ok (out, loops).
Proof. exact write_track_empty. Qed.
Print Assumptions C47_empty_track.

(** C47 and C02 together: what the driver hears from a framed track. *)
Theorem C47_framed_track_plays :
  forall (s : song) (out : list Z) (ti : nat) (loops : list call_loop_ref) (tr : track) (rest : list Z),
  nth_error (tracks s) ti = Some tr -> tr <> [] ->
  ~ (exists qs rs, parts s = qs ++ [] :: rs /\ forall q, ~ In (ti :: q) qs) -> well_formed tr ->
  exists pre_cmds bytes loops',
    write_track s out ti loops = Ok (out ++ bytes, loops') /\
    play_stream (bytes ++ rest) = Some (control_events pre_cmds ++ prescribed tr None None, rest) /\
    ((exists q, In (ti :: q) (parts s)) -> pre_cmds = [(0xfa, [0x19]); (0xe5, [0xc8]); (0xed, [0xc8])]) /\
    ((forall q, ~ In (ti :: q) (parts s)) -> (exists p, In p (parts s) /\ In ti p) -> pre_cmds = [(0xed, [0xc8])]) /\
    ((forall p, In p (parts s) -> ~ In ti p) -> pre_cmds = []).
Proof. exact framed_plays. Qed.
Print Assumptions C47_framed_track_plays.
Example C47_case :
  let s := mk_song [[0; 1]%nat] [C02_example; [mk_pcmd (Some 24) None None (Note 0xa4)]; [mk_pcmd (Some 1) None None Rest]] in
  write_track s [] 1 [] = Ok ([0xed; 0xc8; 24; 0x7d; 0xa4; 0], []) /\
  write_track s [] 2 [] = Ok ([1; 0xc9; 0], []) /\ (forall p, In p (parts s) -> p <> []).
Proof. repeat split; try reflexivity. cbn. intros p [<-|[]]; discriminate. Qed.
(** A song with an empty part, and a track that is written all the same. *)
Example C47_case_empty :
  let s := mk_song [[1]%nat; []] [C02_example; [mk_pcmd (Some 24) None None (Note 0xa4)]] in
  write_track s [] 0 [] = Panic PIndex /\ write_track s [] 1 [] = Ok ([0xfa; 0x19; 0xe5; 0xc8; 0xed; 0xc8; 24; 0x7d; 0xa4; 0], []).
Proof. split; reflexivity. Qed.
