(** PropTime.v: properties C05-C07 (durations) and C13 (tempo). Specifications: SpecTime.v, SpecF32.v. *)
From Coq Require Import ZArith Reals List.
From Coq Require Import Floats.SpecFloat.
From Flocq Require Import Core.Core.
From Verif Require Import Base F32 Messages Command Track SpecTime SpecF32 DurationProofs SplitProofs TempoProofs.
Open Scope Z_scope.

(** C05. A length of [t] ticks that is exactly [k] steps of 1/24 beat is quantised to [k] steps in either
    rounding direction, and the clock advances by exactly [t]; no overflow in either build. *)
Theorem C05_grid_lengths_exact :
  forall (b : build) (t tpb k : Z) (up : bool),
  1 <= tpb <= 65535 -> 0 <= t <= 2 ^ 24 -> 0 <= k < 2 ^ 23 - 1 -> 24 * t = k * tpb ->
  exists d, get_duration b t tpb up = Ok d /\ quantized_length t tpb up = k /\ quantized_ticks d = t /\
    (k <= 32512 -> d_length d + 127 * overflow_count d = k).
Proof. exact get_duration_grid. Qed.
Print Assumptions C05_grid_lengths_exact.
Example C05_case : 1 <= 480 <= 65535 /\ 24 * 7180 = 359 * 480 /\
  get_duration Debug 7180 480 true = Ok (mk_duration 105 7180 2).
Proof. split; [lia|]. split; [lia|]. vm_compute. reflexivity. Qed.

(** C06, lengths below 2^23/24 ticks: rests are rounded down and notes up to the grid, exactly. *)
Theorem C06_rounding_exact :
  forall (t tpb : Z), 1 <= tpb <= 65535 -> 0 <= t -> 24 * t < 2 ^ 23 ->
  quantized_length t tpb false = 24 * t / tpb /\
  quantized_length t tpb true = (24 * t + tpb - 1) / tpb.
Proof. exact quantized_exact. Qed.
Print Assumptions C06_rounding_exact.
Example C06_case : quantized_length 347 480 false = 17 /\ quantized_length 347 480 true = 18 /\
  24 * 347 / 480 = 17 /\ (24 * 347 + 480 - 1) / 480 = 18.
Proof. vm_compute. repeat split. Qed.

(** C06, lengths up to 2^24 ticks: less than one step from the exact length [24 t / tpb] in either direction.
    Missing: the rounding direction, which the code does not guarantee ([C06_direction_refuted]). *)
Theorem C06_rounding_partial :
  forall (t tpb : Z) (up : bool),
  1 <= tpb <= 65535 -> 0 <= t <= 2 ^ 24 -> 24 * t / tpb < 2 ^ 23 - 1 ->
  Z.abs (quantized_length t tpb up * tpb - 24 * t) < tpb.
Proof. exact quantized_within. Qed.
Print Assumptions C06_rounding_partial.
Example C06_partial_case : 0 <= 1000000 <= 2 ^ 24 /\ 24 * 1000000 / 96 < 2 ^ 23 - 1.
Proof. vm_compute. repeat split; discriminate. Qed.

(** C06: a longer length never gets fewer steps (all 32-bit lengths). *)
Theorem C06_monotone :
  forall (t t' tpb : Z) (up : bool),
  0 <= t <= t' -> t' < 2 ^ 32 -> 1 <= tpb <= 65535 ->
  quantized_length t tpb up <= quantized_length t' tpb up.
Proof. exact quantized_length_mono. Qed.
Print Assumptions C06_monotone.

(** C06: for long lengths the documented direction fails: a "rounded up" note can come out shorter than
    its exact length, a "rounded down" rest longer. *)
Theorem C06_direction_refuted :
  (exists t tpb, 0 <= t <= 2 ^ 24 /\ 1 <= tpb <= 65535 /\ quantized_length t tpb true * tpb < 24 * t) /\
  (exists t tpb, 0 <= t <= 2 ^ 24 /\ 1 <= tpb <= 65535 /\ quantized_length t tpb false * tpb > 24 * t).
Proof. exact direction_refuted. Qed.
Print Assumptions C06_direction_refuted.

(** C07. A rest is emitted as rests of legal durations whose sum is the quantised length.
    Missing: lengths beyond 256*127 = 32512 steps, for which it is false ([C07_long_refuted]). *)
Theorem C07_rest_split_partial :
  forall b cmds e t tpb cmds' e',
  insert_rest b cmds e t tpb = Ok (cmds', e') -> e < t ->
  quantized_length (t - e) tpb false <= 32512 ->
  exists pieces, cmds' = cmds ++ pieces /\
    Forall (fun pc => cmd pc = Rest /\ legal_duration pc) pieces /\
    total_steps pieces = quantized_length (t - e) tpb false.
Proof. exact insert_rest_split. Qed.
Print Assumptions C07_rest_split_partial.

(** C07. A note is emitted as one note (or tie) and ties, of legal durations, with the right sum. *)
Theorem C07_note_split_partial :
  forall b s note t tpb s' start,
  on_note_off b s note t tpb = Ok s' -> note_start s = Some start ->
  start <= t -> t - start < 2 ^ 32 ->
  1 <= quantized_length (t - start) tpb true <= 32512 ->
  exists head ties, commands s' = commands s ++ head :: ties /\
    (is_note (cmd head) = true \/ cmd head = Tie) /\ legal_duration head /\
    Forall (fun pc => cmd pc = Tie /\ legal_duration pc /\ velocity pc = None /\ sustain pc = None) ties /\
    total_steps (head :: ties) = quantized_length (t - start) tpb true.
Proof. exact note_off_split. Qed.
Print Assumptions C07_note_split_partial.
Example C07_case :
  (let* s := on_note_on Debug tstate0 60 100 0 48 in on_note_off Debug s 60 600 48) =
  Ok (mk_tstate [mk_pcmd (Some 127) (Some 12) (Some 7) (Note 164); tie_cmd 127; tie_cmd 46] None 100 600 false 0)
  /\ quantized_length 600 48 true = 300 /\
  insert_rest Debug [] 0 600 48 = Ok ([rest_cmd 127; rest_cmd 127; rest_cmd 46], 600).
Proof. vm_compute. repeat split. Qed.

(** C07 fails beyond 32512 steps: a rest of 32513 steps is emitted as a single step. *)
Theorem C07_long_refuted :
  exists b cmds e t tpb cmds' e',
    insert_rest b cmds e t tpb = Ok (cmds', e') /\ e < t /\
    quantized_length (t - e) tpb false = 32513 /\ cmds = [] /\ total_steps cmds' = 1.
Proof. exact rest_split_lossy. Qed.
Print Assumptions C07_long_refuted.

(** C13. The tempo byte of [u] microseconds per beat: ceil(60000000/u) beats per minute (exactly, despite the
    float division) times the factor in single precision, truncated, saturated at 255. *)
Theorem C13_tempo_value :
  forall (u : Z) (tf : f32) (F : R), 1 <= u < 2 ^ 24 -> nonneg_float tf F ->
  tempo_byte u tf = Z.min 255 (Zfloor (single_round (IZR ((60000000 + u - 1) / u) * F))).
Proof. exact tempo_value. Qed.
Print Assumptions C13_tempo_value.
Example C13_case : nonneg_float f32_0_2 (IZR 13421773 * bpow radix2 (-26)) /\
  map (fun u => tempo_byte u f32_0_2) [500000; 1000000; 16777215; 47059] = [24; 12; 0; 255].
Proof.
  split; [|vm_compute; reflexivity]. right. exists 13421773%positive, (-26).
  repeat split.
Qed.

(** C13: a zero tempo saturates (unless the factor is zero). *)
Theorem C13_tempo_zero :
  forall (tf : f32) (F : R), nonneg_float tf F ->
  (F = 0%R -> tempo_byte 0 tf = 0) /\ (F <> 0%R -> tempo_byte 0 tf = 255).
Proof. exact tempo_zero. Qed.
Print Assumptions C13_tempo_zero.

(** C13: a slower MIDI tempo never gives a faster byte. *)
Theorem C13_tempo_monotone :
  forall (u u' : Z) (tf : f32) (F : R), 0 <= u <= u' -> u' < 2 ^ 24 -> nonneg_float tf F ->
  tempo_byte u' tf <= tempo_byte u tf.
Proof. exact tempo_mono. Qed.
Print Assumptions C13_tempo_monotone.

(** C13: a set-tempo event appends exactly that tempo command and changes nothing else; it crashes iff
    it has fewer than three data bytes. *)
Theorem C13_tempo_event :
  forall b tpb tf s delta data t,
  (3 <= length data)%nat ->
  exists d0 d1 d2 rest, data = d0 :: d1 :: d2 :: rest /\
  track_step b tpb tf s (MetaEvent delta SetTempo data, t) =
  Ok (set_commands s (commands s ++ [mk_pcmd None None None (Tempo (tempo_byte (d0 * 65536 + d1 * 256 + d2) tf))])).
Proof. exact tempo_event. Qed.
Print Assumptions C13_tempo_event.
Theorem C13_tempo_event_short :
  forall b tpb tf s delta data t,
  (length data < 3)%nat -> track_step b tpb tf s (MetaEvent delta SetTempo data, t) = Panic PIndex.
Proof. exact tempo_event_short. Qed.
Print Assumptions C13_tempo_event_short.
