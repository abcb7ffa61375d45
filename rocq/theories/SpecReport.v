(** SpecReport.v: what the progress display and the verbose output of a build should be. Used only to state
    theorems. *)
From Coq Require Import Sorted.
From Verif Require Import Base F32 Command Track Song Paths Manifest Rom SpecRom SpecBank Report.
Open Scope Z_scope.

(** ** The display thread.
    The bars draw by sending messages to a thread, which counts the bars that have finished and ends when
    all have. Crate pbr 1.0.1: [finish_print] draws and then sends one empty message, which
    [MultiBar::listen] counts; [set] and [inc] draw or not, depending on the time since the last drawing;
    [listen] returns after as many empty messages as bars were created; a send fails once it has returned. *)
Inductive message := Draw | Finished.
Inductive sends : list event -> list message -> Prop :=
| sends_nil : sends [] []
| sends_new : forall bar n l ms, sends l ms -> sends (BarNew bar n :: l) ms
| sends_total : forall bar n l ms, sends l ms -> sends (BarTotal bar n :: l) ms
| sends_said : forall m l ms, sends l ms -> sends (Said m :: l) ms
| sends_set : forall k bar v l ms, sends l ms -> sends (BarSet bar v :: l) (repeat Draw k ++ ms)
| sends_inc : forall k bar l ms, sends l ms -> sends (BarInc bar :: l) (repeat Draw k ++ ms)
| sends_done : forall k bar l ms, sends l ms -> sends (BarDone bar :: l) (repeat Draw k ++ Finished :: ms).

(** The two threads: what the builder still has to send, the channel, the number of bars the display
    thread still waits for, and whether the builder has joined it. The builder sends everything and then
    joins; joining waits for the end of the display thread; sending to an ended thread fails. *)
Record threads := mk_threads { to_send : list message; channel : list message; bars_left : nat; joined : bool }.
Inductive thread_step : threads -> threads -> Prop :=
| builder_sends : forall m ms ch n, thread_step (mk_threads (m :: ms) ch (S n) false) (mk_threads ms (ch ++ [m]) (S n) false)
| display_draws : forall ms ch n, thread_step (mk_threads ms (Draw :: ch) (S n) false) (mk_threads ms ch (S n) false)
| display_counts : forall ms ch n, thread_step (mk_threads ms (Finished :: ch) (S n) false) (mk_threads ms ch n false)
| builder_joins : forall ch, thread_step (mk_threads [] ch 0 false) (mk_threads [] ch 0 true).
(** Every schedule leads to the join in finitely many steps. *)
Inductive always_joins : threads -> Prop :=
| joins_now : forall t, joined t = true -> always_joins t
| joins_later : forall t, (exists t', thread_step t t') -> (forall t', thread_step t t' -> always_joins t') -> always_joins t.

(** ** The bars. *)
Fixpoint bars_made (l : list event) : list (nat * Z) :=
  match l with [] => [] | BarNew bar n :: l' => (bar, n) :: bars_made l' | _ :: l' => bars_made l' end.
Fixpoint bars_finished (l : list event) : list nat :=
  match l with [] => [] | BarDone bar :: l' => bar :: bars_finished l' | _ :: l' => bars_finished l' end.
Fixpoint songs_counted (l : list event) : nat :=
  match l with [] => 0 | BarInc 0 :: l' => S (songs_counted l') | _ :: l' => songs_counted l' end.
Fixpoint values_shown (bar : nat) (l : list event) : list Z :=
  match l with [] => [] | BarSet bar' v :: l' => if Nat.eqb bar bar' then v :: values_shown bar l' else values_shown bar l' | _ :: l' => values_shown bar l' end.
Fixpoint totals_set (bar : nat) (l : list event) : list Z :=
  match l with [] => [] | BarTotal bar' v :: l' => if Nat.eqb bar bar' then v :: totals_set bar l' else totals_set bar l' | _ :: l' => totals_set bar l' end.
(** A bar moves forward only, and not beyond its total. *)
Definition advances (total : Z) (vs : list Z) : Prop := StronglySorted Z.le vs /\ Forall (fun v => 0 <= v <= total) vs.

(** ** The verbose output. *)
Fixpoint said (l : list event) : list report :=
  match l with [] => [] | Said m :: l' => m :: said l' | _ :: l' => said l' end.
Fixpoint songs_told (l : list report) : list (Z * Z * Z) :=
  match l with [] => [] | SongAddress rom ram table :: l' => (rom, ram, table) :: songs_told l' | _ :: l' => songs_told l' end.
Fixpoint tracks_told (l : list report) : list (Z * Z) :=
  match l with [] => [] | TrackData rom ram :: l' => (rom, ram) :: tracks_told l' | _ :: l' => tracks_told l' end.
Fixpoint parts_told (l : list report) : list Z :=
  match l with [] => [] | PartData rom _ :: l' => rom :: parts_told l' | _ :: l' => parts_told l' end.
(** Where pointers to tracks and operands of loop calls are said to be written. *)
Fixpoint pointers_told (l : list report) : list Z :=
  match l with [] => [] | TrackAddress _ at_ :: l' => at_ :: pointers_told l' | _ :: l' => pointers_told l' end.
Fixpoint operands_told (l : list report) : list Z :=
  match l with [] => [] | LoopAddress _ at_ :: l' => at_ :: operands_told l' | _ :: l' => operands_told l' end.
(** The [n] bytes at [rom] in the file go to [ram] in the sound processor's memory. *)
Definition goes_to (base ovf : tblock) (rom ram n : Z) : Prop :=
  exists b, (b = base \/ b = ovf) /\ payload b <= rom /\ rom + n <= payload_end b /\ ram - tb_aram b = rom - payload b.
(** The word at [a] is in one of the blocks and holds [w]. *)
Definition holds_word (base ovf : tblock) (r : list Z) (a w : Z) : Prop :=
  (exists b, (b = base \/ b = ovf) /\ payload b <= a /\ a + 2 <= payload_end b) /\ word r a = w.
(** What is printed is true of the finished image [r]. The sizes printed at the end
    of a song and when the block changes are in SpecSize.v. *)
Definition report_true (base ovf : tblock) (r : list Z) (m : report) : Prop :=
  match m with
  | BankStart rom _ len => rom = payload base /\ len = tb_len base
  | Switching _ => True
  | SongAddress rom ram table => goes_to base ovf rom ram 20 /\ holds_word base ovf r table ram
  | TrackData rom ram => goes_to base ovf rom ram 0
  | PartData rom ram => goes_to base ovf rom ram 16
  | TrackAddress a at_ => holds_word base ovf r at_ a
  | LoopAddress a at_ => holds_word base ovf r at_ a
  | SongSize _ => True
  end.
(** The track with these bytes and loop operands is at the printed address. *)
Definition track_told (base ovf : tblock) (r : list Z) (x : Z * Z) (d : list Z * list call_loop_ref) : Prop :=
  goes_to base ovf (fst x) (snd x) (data_len d) /\
  forall j, (j < length (fst d))%nat -> ~ operand (snd d) j -> byte r (fst x + Z.of_nat j) = nth j (fst d) 0.

(** Nothing is left out: for every song its part table is named, behind a header of 4 bytes, or 8 if the song
    loops; then every pointer in it; and every operand of a loop call in every track. *)
Definition first_part (s : song) : list nat := match parts s with p :: _ => p | [] => [] end.
Definition all_told (ss : list song) (ls : list (bool * list (list Z * list call_loop_ref))) (log : list report) : Prop :=
  parts_told log = map (fun x : (Z * Z * Z) * (bool * list (list Z * list call_loop_ref)) => fst (fst (fst x)) + (if fst (snd x) then 8 else 4)) (combine (songs_told log) ls) /\
  pointers_told log = flat_map (fun x : Z * song => map (fun k => fst x + 2 * Z.of_nat k) (seq 0 (length (first_part (snd x))))) (combine (parts_told log) ss) /\
  operands_told log = flat_map (fun x : (Z * Z) * (list Z * list call_loop_ref) => map (fun z => fst (fst x) + Z.of_nat (ref_pos z)) (snd (snd x))) (combine (tracks_told log) (flat_map snd ls)).
(** The output for one bank, which has the songs [ss] with the tracks [ls] and whose first entry in the song
    table is [first]: it starts with that number, everything is true, the songs are named in order with
    their table entries, and so are the tracks of all songs. *)
Definition bank_told (L : layout) (r : list Z) (first : nat) (ss : list song) (ls : list (bool * list (list Z * list call_loop_ref))) (log : list report) : Prop :=
  hd_error log = Some (BankStart (payload (lo_base L)) (Z.of_nat first) (tb_len (lo_base L))) /\
  Forall (report_true (lo_base L) (lo_ovf L) r) log /\
  map snd (songs_told log) = map (fun k => payload (lo_base L) + 2 * Z.of_nat (first + k)) (seq 0 (length ls)) /\
  Forall2 (track_told (lo_base L) (lo_ovf L) r) (tracks_told log) (flat_map snd ls) /\
  all_told ss ls log.

(** ** Sizes. No track of the song in the slot is longer than [n] bytes. *)
Definition tracks_at_most (b : build) (conv : path -> f32 -> outcome song) (n : Z) (sd : song_def) : Prop :=
  forall s i data refs, (match input sd with Some f => conv f (tempo_factor sd) = Ok s | None => song_empty b = Ok s end) ->
    write_track s [] i [] = Ok (data, refs) -> Z.of_nat (length data) <= n.
