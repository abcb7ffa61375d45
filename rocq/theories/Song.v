(** Song.v: model of src/nspc/mod.rs (songs, call-loop optimisation, track output). *)
From Verif Require Import Base F32 Messages Command Track SeqTree.

(** src/nspc/mod.rs:35-44 [struct Part] (its track indices) and [struct Song]. *)
Record song := mk_song { parts : list (list nat); tracks : list track }.

(** src/nspc/mod.rs:129-147: rewriting one top-level track. [last] is [last_index], [new_idx] is
    [tracks.len()]. *)
Fixpoint extract_track (tr : track) (ls : list location) (seq_length new_idx : nat) (last : option nat)
  (acc : track) : outcome track :=
  match ls with
  | [] =>
      match last with
      | Some li =>
          if Nat.ltb li (length tr)
          then let* s := slice tr li (length tr) in Ok (acc ++ s)
          else Ok acc
      | None => let* s := slice tr 0 (length tr) in Ok (acc ++ s)
      end
  | l :: ls' =>
      let* s := slice tr (oelse last O) (cmd_idx l) in
      let call := mk_pcmd (Some 0) (Some 0) (Some 0) (CallLoop new_idx (repeat_count l)) in
      extract_track tr ls' seq_length new_idx (Some (loc_end l seq_length)) (acc ++ s ++ [call])
  end.

(** src/nspc/mod.rs:124-149: the loop over the top-level tracks; [i] is the index of the first. *)
Fixpoint extract_tracks (trs : list track) (i : nat) (s : sequence) (new_idx : nat)
  : outcome (list track) :=
  match trs with
  | [] => Ok []
  | tr :: trs' =>
      let ls := filter (fun l => Nat.eqb (track_idx l) i) (seq_locs s) in
      let* t := extract_track tr ls (length (seq_cmds s)) new_idx None [] in
      let* r := extract_tracks trs' (S i) s new_idx in
      Ok (t :: r)
  end.

(** src/nspc/mod.rs:117-157 [Song::extract_sequence]. *)
Definition extract_sequence (trs : list track) (s : sequence) (top_level : nat)
  : outcome (list track) :=
  let* nt := extract_tracks (firstn top_level trs) 0 s (length trs) in
  Ok (nt ++ skipn top_level trs ++ [seq_cmds s]).

(** src/nspc/mod.rs:99-102: the tree of all top-level tracks; [i] is the index of the first. *)
Fixpoint build_tree (b : build) (t : tree) (trs : list track) (i : nat) : outcome tree :=
  match trs with
  | [] => Ok t
  | tr :: trs' => let* t' := add_track b t tr i in build_tree b t' trs' (S i)
  end.

(** src/nspc/mod.rs:94-115 [Song::optimize_call_loops], with recursion fuel. *)
Fixpoint optimize_fuel (fuel : nat) (b : build) (trs : list track) (top_level : nat)
  : outcome (list track) :=
  match fuel with
  | O => Diverge
  | S fuel' =>
      let* t := build_tree b empty_tree (firstn top_level trs) 0 in
      let* best := best_sequence b t in
      match best with
      | None => Ok trs
      | Some s =>
          let* trs' := extract_sequence trs s top_level in
          optimize_fuel fuel' b trs' top_level
      end
  end.
Definition total_length (trs : list track) : nat := list_sum (map (@length _) trs).
Definition optimize_call_loops (b : build) (trs : list track) (top_level : nat) : outcome (list track) :=
  optimize_fuel (S (total_length (firstn top_level trs))) b trs top_level.

(** src/nspc/mod.rs:53-72: the non-empty tracks of the eight voices; the first error (or panic) wins. *)
Fixpoint convert_voices (b : build) (voices : list (list tmsg)) (ticks_per_beat max_time : Z)
  (tempo_factor : f32) : outcome (list track) :=
  match voices with
  | [] => Ok []
  | ev :: vs =>
      let* t := track_new b ev ticks_per_beat max_time tempo_factor in
      let* r := convert_voices b vs ticks_per_beat max_time tempo_factor in
      match t with [] => Ok r | _ => Ok (t :: r) end
  end.

(** src/nspc/mod.rs:47-92 [Song::from_midi], from the handler's eight voice lists. *)
Definition song_from_midi (b : build) (voices : list (list tmsg)) (ticks_per_beat max_time : Z)
  (tempo_factor : f32) (optimize : bool) : outcome song :=
  let* trs := convert_voices b voices ticks_per_beat max_time tempo_factor in
  let part := seq 0 (length trs) in
  if optimize then
    let* trs' := optimize_call_loops b trs (length trs) in
    Ok (mk_song [part] trs')
  else Ok (mk_song [part] trs).

(** src/nspc/mod.rs:169-174 [Song::empty]. *)
Definition song_empty (b : build) : outcome song :=
  let* t := track_new b [] 24 0 f32_0_3 in
  Ok (mk_song [[O]] [t]).

(** src/nspc/mod.rs:176-182. *)
Definition get_part_tracks (s : song) (part_idx : nat) : outcome (list nat) :=
  or_panic PIndex (nth_error (parts s) part_idx).
Definition get_num_tracks (s : song) : nat := length (tracks s).

(** src/nspc/mod.rs:19-27. *)
Definition PREAMBLE_TRACK_0 : list Z := [0xfa; 0x19; 0xe5; 0xc8; 0xed; 0xc8].
Definition PREAMBLE_OTHER_TRACK : list Z := [0xed; 0xc8].

(** src/nspc/mod.rs:192: [parts.iter().any(|part| part.tracks[0] == track_idx)], panicking on a
    part without tracks unless an earlier part already matched. *)
Fixpoint opens_a_part (ps : list (list nat)) (ti : nat) : outcome bool :=
  match ps with
  | [] => Ok false
  | p :: ps' =>
      match p with
      | [] => Panic PIndex
      | t0 :: _ => if Nat.eqb t0 ti then Ok true else opens_a_part ps' ti
      end
  end.

(** src/nspc/mod.rs:184-205 [Song::write_track]. *)
Definition write_track (s : song) (out : list Z) (ti : nat) (loops : list call_loop_ref)
  : outcome (list Z * list call_loop_ref) :=
  let* tr := or_panic PIndex (nth_error (tracks s) ti) in
  match tr with
  | [] => Ok (out, loops)
  | _ =>
      let* first := opens_a_part (parts s) ti in
      let out1 :=
        if first then out ++ PREAMBLE_TRACK_0
        else if existsb (fun p => existsb (Nat.eqb ti) p) (parts s) then out ++ PREAMBLE_OTHER_TRACK
        else out in
      let '(out2, loops') := track_write tr out1 loops in
      Ok (out2 ++ [0x00], loops')
  end.
