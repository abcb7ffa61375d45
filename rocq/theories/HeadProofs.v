(** HeadProofs.v: the notes of a converted track, for any events and any times (C12, C48). *)
From Coq Require Import Lia.
From Verif Require Import Base F32 Messages Command Track ProofLib SpecTime SpecVoice SpecHeads SplitProofs TrackProofs SlideProofs ControlProofs.
Open Scope list_scope.

(** A walk without the clock. *)
Definition core : Type := command * Z * option pcmd * bool.
Definition core_of (h : head) : core := (h_cmd h, h_vel h, h_slide h, h_tied h).
Record cwalk := mk_cwalk { c_slide : option pcmd; c_last : bool; c_heads : list core }.
Definition cwalk0 : cwalk := mk_cwalk None false [].
Definition cwalk_step (w : cwalk) (pc : pcmd) : cwalk :=
  mk_cwalk (if slide_cmd pc then Some pc else match velocity pc with Some _ => None | None => c_slide w end)
    (slide_cmd pc)
    (match velocity pc with Some v => c_heads w ++ [(cmd pc, v, c_slide w, c_last w)] | None => c_heads w end).
Definition cwalk_of (l : list pcmd) : cwalk := fold_left cwalk_step l cwalk0.
Lemma cwalk_from l : forall w, let v := fold_left walk_step l w in
  fold_left cwalk_step l (mk_cwalk (w_slide w) (w_last_slide w) (map core_of (w_heads w))) = mk_cwalk (w_slide v) (w_last_slide v) (map core_of (w_heads v)).
Proof.
  induction l as [|c l IH]; intros w; [reflexivity|]. cbn [fold_left]. cbv zeta in IH. rewrite <- IH. f_equal. unfold cwalk_step, walk_step.
  cbn [c_slide c_last c_heads w_slide w_last_slide w_heads]. destruct (velocity c); [|reflexivity]. rewrite map_app. reflexivity.
Qed.
Lemma heads_core l : map core_of (heads l) = c_heads (cwalk_of l).
Proof. unfold heads, cwalk_of. pose proof (cwalk_from l walk0) as H. cbn [w_slide w_last_slide w_heads walk0 map] in H. cbv zeta in H. change (mk_cwalk None false []) with cwalk0 in H. rewrite H. reflexivity. Qed.
Lemma cwalk_app l l' : cwalk_of (l ++ l') = fold_left cwalk_step l' (cwalk_of l).
Proof. apply fold_left_app. Qed.
Lemma cwalk_last l : c_last (cwalk_of l) = match last_opt l with Some c => is_slide c | None => false end.
Proof.
  destruct (last_opt l) as [c|] eqn:E.
  - apply last_opt_some in E. destruct E as (l' & ->). rewrite cwalk_app. reflexivity.
  - apply last_opt_nil in E. now subst.
Qed.

(** Commands that are neither a note nor a slide. *)
Definition dull (pc : pcmd) : Prop := slide_cmd pc = false /\ velocity pc = None.
Lemma dull_walk l : Forall dull l -> forall w, c_slide (fold_left cwalk_step l w) = c_slide w /\ c_heads (fold_left cwalk_step l w) = c_heads w.
Proof.
  induction 1 as [|c l [H1 H2] _ IH]; intros w; [split; reflexivity|]. cbn [fold_left]. destruct (IH (cwalk_step w c)) as [A B]. rewrite A, B.
  unfold cwalk_step. cbn [c_slide c_heads]. rewrite H1, H2. split; reflexivity.
Qed.
Lemma dull_repeat c n : dull c -> Forall dull (repeat c n).
Proof. intros H. apply Forall_forall. intros x Hx. apply repeat_spec in Hx. now subst. Qed.
Lemma dull_ties n len : Forall dull (overflow_ties n len).
Proof.
  unfold overflow_ties. destruct (0 <? n); [|constructor]. apply Forall_app. split; [apply dull_repeat; split; reflexivity|constructor; [split; reflexivity|constructor]].
Qed.
Lemma insert_rest_dull b cmds e t tpb cmds' e' : insert_rest b cmds e t tpb = Ok (cmds', e') -> exists l, cmds' = cmds ++ l /\ Forall dull l.
Proof.
  unfold insert_rest. destruct (e <? t); [|intros [= <- _]; exists []; rewrite app_nil_r; split; [reflexivity|constructor]].
  intros H. inv_bind H. inv_bind H. injection H as <- _. destruct (0 <? d_length a).
  - eexists. rewrite <- app_assoc. split; [reflexivity|]. apply Forall_app. split; [apply dull_repeat; split; reflexivity|constructor; [split; reflexivity|constructor]].
  - eexists. split; [reflexivity|]. apply dull_repeat. split; reflexivity.
Qed.
Lemma push_slide_appends b s cmds k tpb cmds' : 0 <= k < 128 -> push_slide b s cmds k tpb = Ok cmds' ->
  cmds' = cmds \/ exists p q, cmds' = cmds ++ [mk_pcmd None None None (PitchSlide p q (k + 0x68))].
Proof.
  intros Hk. unfold push_slide. destruct (portamento s); [|intros [= <-]; auto]. destruct (last_opt cmds) as [lc|]; [|intros [= <-]; auto].
  intros H. inv_bind H. inv_bind H. rewrite arith_exact in Ha0 by lia. injection Ha0 as <-.
  destruct (create_pitch_slide lc (d_length a) (k + 0x68)) as [sl|] eqn:E; injection H as <-; [|auto]. right.
  unfold create_pitch_slide in E. destruct (duration lc) as [d|].
  - destruct (cmd lc); try discriminate; injection E as <-; eauto.
  - destruct (cmd lc); discriminate.
Qed.

(** What a note must look like, and what is known between two events. *)
Definition good_core (off : bool) (c : core) (n : vnote) : Prop :=
  match c with (cm, v, sl, tied) =>
    v = n_vel n / 8 /\ cm = (if tied then Tie else Note (n_key n + 0x68)) /\ (tied = true -> sl <> None) /\
    (off = true -> forall s p q target, sl = Some s -> cmd s = PitchSlide p q target -> target = n_key n + 0x68)
  end.
Definition aims (sl : option pcmd) (k : Z) : Prop := forall s p q target, sl = Some s -> cmd s = PitchSlide p q target -> target = k + 0x68.
Definition head_inv (off : bool) (s : tstate) (open : option (Z * Z)) (key : option Z) : Prop :=
  match note_start s, open with
  | Some _, Some (_, v) => note_velocity s = v /\ exists k, key = Some k /\ aims (c_slide (cwalk_of (commands s))) k
  | None, None => key = None /\ c_slide (cwalk_of (commands s)) = None
  | _, _ => False
  end /\ (c_last (cwalk_of (commands s)) = true -> c_slide (cwalk_of (commands s)) <> None).
Lemma last_has_slide l : forall w, (c_last w = true -> c_slide w <> None) -> c_last (fold_left cwalk_step l w) = true -> c_slide (fold_left cwalk_step l w) <> None.
Proof.
  induction l as [|c l IH]; intros w Hw; [exact Hw|]. cbn [fold_left]. apply IH. unfold cwalk_step. cbn [c_last c_slide]. intros ->. discriminate.
Qed.
Lemma walk_last_slide l : c_last (cwalk_of l) = true -> c_slide (cwalk_of l) <> None.
Proof. apply last_has_slide. discriminate. Qed.

Definition next_note (open : option (Z * Z)) (key : option Z) (m : message) (t : Z) : option (Z * Z) * option Z :=
  match m with
  | MidiEvent _ (NoteOn _ k v) => (Some (t, v), Some k)
  | MidiEvent _ (NoteOff _ _ _) => (None, None)
  | _ => (open, key)
  end.
(** One event: the notes appended and the notes asked for. *)
Lemma step_heads b tpb tf off s m t s' open key : midi_valid m -> track_step b tpb tf s (m, t) = Ok s' -> head_inv off s open key ->
  (off = true -> off_keys_from key [(m, t)]) ->
  exists new ns, c_heads (cwalk_of (commands s')) = c_heads (cwalk_of (commands s)) ++ new /\ Forall2 (good_core off) new ns /\
    head_inv off s' (fst (next_note open key m t)) (snd (next_note open key m t)) /\
    forall r, notes_from open ((m, t) :: r) = ns ++ notes_from (fst (next_note open key m t)) r.
Proof.
  intros Hm H HI Ho. pose proof HI as [HI1 HI2].
  assert (Hsame : forall s0 : tstate, (exists l, commands s0 = commands s ++ l /\ Forall dull l) -> note_start s0 = note_start s -> note_velocity s0 = note_velocity s ->
    next_note open key m t = (open, key) -> (forall r, notes_from open ((m, t) :: r) = notes_from open r) ->
    exists new ns, c_heads (cwalk_of (commands s0)) = c_heads (cwalk_of (commands s)) ++ new /\ Forall2 (good_core off) new ns /\
    head_inv off s0 (fst (next_note open key m t)) (snd (next_note open key m t)) /\ forall r, notes_from open ((m, t) :: r) = ns ++ notes_from (fst (next_note open key m t)) r).
  { intros s0 (l & El & Hl) E1 E2 En Er. exists [], []. destruct (dull_walk l Hl (cwalk_of (commands s))) as [W1 W2]. rewrite <- cwalk_app, <- El in W1, W2.
    split; [rewrite W2, app_nil_r; reflexivity|]. split; [constructor|]. rewrite En. cbn [fst snd app]. split; [|exact Er]. split; [rewrite E1, E2, W1; exact HI1|apply walk_last_slide]. }
  assert (Hid : exists l, commands s = commands s ++ l /\ Forall dull l) by (exists []; rewrite app_nil_r; auto).
  cbn [track_step] in H. destruct m as [dt ev data|dt ev|dt ev data|].
  - destruct ev as [|kd]; cbn [on_meta] in H.
    + inv_bind H. injection H as <-. apply Hsame; try reflexivity. cbn [set_commands commands]. eexists. split; [reflexivity|]. constructor; [split; reflexivity|constructor].
    + injection H as <-. apply Hsame; auto.
  - destruct ev as [ch k v|ch k v|ch k v|ch ctl d|ch p|ch p|ch d|ch].
    + unfold on_note_off in H. destruct (note_start s) as [st|] eqn:Est.
      * destruct open as [[on v0]|]; [|contradiction]. destruct HI1 as (Ev & k0 & -> & Haim). cbn [midi_valid] in Hm. inv_bind H. inv_bind H. inv_bind H. inv_bind H. injection H as <-. cbn [commands].
        cbn [next_note fst snd].
        assert (Hc : a1 = if c_last (cwalk_of (commands s)) then Tie else Note (k + 0x68)).
        { rewrite cwalk_last. destruct (match last_opt (commands s) with Some c => is_slide c | None => false end); [injection Ha1 as <-; reflexivity|].
          inv_bind Ha1. injection Ha1 as <-. rewrite arith_exact in Ha3 by lia. injection Ha3 as <-. reflexivity. }
        assert (Hns : forall d v u, slide_cmd (mk_pcmd d v u a1) = false) by (intros d0 v1 u; rewrite Hc; unfold slide_cmd; cbn [cmd]; destruct (c_last _); reflexivity).
        rewrite cwalk_app. cbn [fold_left].
        match goal with |- context [fold_left cwalk_step (overflow_ties ?n ?len) ?w] => destruct (dull_walk _ (dull_ties n len) w) as [W1 W2]; rewrite W2 end.
        unfold cwalk_step at 1. cbn [c_heads velocity cmd]. eexists [_], [mk_vnote on t k v0]. split; [reflexivity|]. split; [|split].
        -- constructor; [|constructor]. split; [cbn [n_vel]; rewrite Ev; reflexivity|]. split; [cbn [n_key]; exact Hc|]. split; [exact HI2|].
           intros Eo s0 p0 q0 tg E1 E2. specialize (Ho Eo). cbn [off_keys_from] in Ho. destruct Ho as [-> _]. cbn [n_key]. exact (Haim s0 p0 q0 tg E1 E2).
        -- split; [|cbn [commands]; apply walk_last_slide]. cbn [note_start commands]. split; [reflexivity|]. rewrite cwalk_app. cbn [fold_left]. rewrite W1. unfold cwalk_step at 1. cbn [c_slide velocity]. rewrite Hns. reflexivity.
        -- intros r. cbn [notes_from app]. reflexivity.
      * destruct open as [[on v0]|]; [contradiction|]. injection H as <-. destruct HI1 as [-> HI1]. apply Hsame; [exact Hid|exact Est|reflexivity|reflexivity|reflexivity].
    + unfold on_note_on in H. inv_bind H. destruct a as [c1 e]. inv_bind H. destruct (note_start s) eqn:Est; [discriminate|]. destruct open as [[on v0]|]; [contradiction|]. destruct HI1 as [-> HI1].
      injection H as <-. cbn [commands next_note fst snd]. apply insert_rest_dull in Ha. destruct Ha as (l1 & -> & H1). cbn [midi_valid] in Hm.
      destruct (dull_walk l1 H1 (cwalk_of (commands s))) as [W1 W2]. rewrite <- cwalk_app in W1, W2. exists [], [].
      assert (K : c_heads (cwalk_of a) = c_heads (cwalk_of (commands s)) /\ aims (c_slide (cwalk_of a)) k).
      { apply push_slide_appends in Ha0; [|lia]. destruct Ha0 as [->|(p & q & ->)].
        - split; [exact W2|]. rewrite W1, HI1. intros s0 p q tg E. discriminate.
        - rewrite cwalk_app. cbn [fold_left cwalk_step slide_cmd cmd velocity c_heads c_slide]. split; [exact W2|]. intros s0 p0 q0 tg E1 E2. injection E1 as <-. cbn [cmd] in E2. injection E2 as _ _ <-. reflexivity. }
      destruct K as [K1 K2]. split; [rewrite K1, app_nil_r; reflexivity|]. split; [constructor|]. split; [|intros r; reflexivity].
      split; [|apply walk_last_slide]. cbn [note_start note_velocity commands]. split; [reflexivity|]. exists k. auto.
    + injection H as <-. apply Hsame; auto.
    + unfold on_control_change in H. destruct (ctl =? 5); [injection H as <-; apply Hsame; auto|].
      destruct (ctl =? 7). { inv_bind H. injection H as <-. apply Hsame; try reflexivity. cbn [set_commands commands]. eexists. split; [reflexivity|]. constructor; [split; reflexivity|constructor]. }
      destruct (ctl =? 37); [injection H as <-; apply Hsame; auto|]. destruct (ctl =? 65); injection H as <-; apply Hsame; auto.
    + unfold on_program_change in H. inv_bind H. destruct a as [c1 e]. inv_bind H. injection H as <-. apply Hsame; try reflexivity. cbn [commands].
      apply insert_rest_dull in Ha. destruct Ha as (l1 & -> & H1). eexists. rewrite <- app_assoc. split; [reflexivity|]. apply Forall_app. split; [exact H1|constructor; [split; reflexivity|constructor]].
    + injection H as <-. apply Hsame; auto.
    + injection H as <-. apply Hsame; auto.
    + injection H as <-. apply Hsame; auto.
  - injection H as <-. apply Hsame; auto.
  - injection H as <-. apply Hsame; auto.
Qed.
Lemma off_keys_step key m t r : off_keys_from key ((m, t) :: r) -> off_keys_from key [(m, t)] /\ forall open, off_keys_from (snd (next_note open key m t)) r.
Proof.
  destruct m as [dt ev data|dt ev|dt ev data|]; try (intros H; split; [exact I|intros; exact H]). destruct ev; intros H; try (split; [exact I|intros; exact H]).
  destruct H as [H1 H2]. split; [split; [exact H1|exact I]|intros; exact H2].
Qed.
Lemma loop_heads b tpb tf off : forall events s s' open key, Forall (fun ev => midi_valid (fst ev)) events -> ofold (track_step b tpb tf) events s = Ok s' ->
  head_inv off s open key -> (off = true -> off_keys_from key events) ->
  exists new, c_heads (cwalk_of (commands s')) = c_heads (cwalk_of (commands s)) ++ new /\ Forall2 (good_core off) new (notes_from open events).
Proof.
  induction events as [|[m t] r IH]; intros s s' open key Hv H HI Ho; cbn [ofold] in H.
  - injection H as <-. exists []. rewrite app_nil_r. split; [reflexivity|constructor].
  - inv_bind H. inversion Hv as [|? ? Hv1 Hv2]; subst.
    destruct (step_heads b tpb tf off s m t a open key Hv1 Ha HI) as (new & ns & E1 & E2 & E3 & E4). { intros Eo. apply (off_keys_step key m t r (Ho Eo)). }
    destruct (IH a s' _ _ Hv2 H E3) as (new' & F1 & F2). { intros Eo. apply (off_keys_step key m t r (Ho Eo)). }
    exists (new ++ new'). split; [rewrite F1, E1, app_assoc; reflexivity|]. rewrite E4. apply Forall2_app; assumption.
Qed.

(** Folding rests into notes keeps the notes. *)
Lemma sustain_walk n : forall l l' w, (length l <= n)%nat -> Forall rest_silent l -> sustain_pass l = Ok l' ->
  c_heads (fold_left cwalk_step l' w) = c_heads (fold_left cwalk_step l w).
Proof.
  induction n as [|n IH]; intros l l' w Hn Hl H. { destruct l; [|cbn in Hn; lia]. injection H as <-. reflexivity. }
  destruct l as [|c [|next l]]; [injection H as <-; reflexivity|injection H as <-; reflexivity|].
  rewrite sustain_pass_cons in H. inv_bind H. destruct a as [skip c']. inv_bind H. injection H as <-.
  inversion Hl as [|? ? Hc Hl1]; subst. inversion Hl1 as [|? ? Hnx Hl2]; subst.
  assert (Hcase : (skip = false /\ c' = c) \/ (skip = true /\ cmd next = Rest /\ cmd c' = cmd c /\ velocity c' = velocity c /\ slide_cmd c = false)).
  { unfold set_sustain in Ha. destruct (cmd c) eqn:Ec; try (injection Ha as <- <-; auto; fail).
    destruct (cmd next); try (injection Ha as <- <-; auto; fail).
    inv_bind Ha. inv_bind Ha. destruct (_ =? 0); [discriminate|]. destruct (_ || _); injection Ha as <- <-; auto. right. unfold slide_cmd. rewrite Ec. auto. }
  destruct Hcase as [(-> & ->)|(-> & E1 & E2 & E3 & E4)].
  - cbn [fold_left]. apply (IH (next :: l) a (cwalk_step w c)); [cbn in *; lia|exact Hl1|exact Ha0].
  - cbn [fold_left]. rewrite (IH l a _ ltac:(cbn in *; lia) Hl2 Ha0). do 2 f_equal. unfold cwalk_step, slide_cmd. rewrite E1, E2, E3, (Hnx E1). cbn [c_slide c_last c_heads]. fold (slide_cmd c). rewrite E4. reflexivity.
Qed.
Lemma heads_any b events tpb mt tf tr off : Forall (fun ev => midi_valid (fst ev)) events -> track_new b events tpb mt tf = Ok tr ->
  (off = true -> off_keys events) -> Forall2 (good_core off) (map core_of (heads tr)) (notes_of events).
Proof.
  intros Hv H Ho. rewrite heads_core. unfold track_new in H. inv_bind H.
  destruct (loop_heads b tpb tf off events tstate0 a None None Hv Ha) as (new & E1 & E2); [split; [split; reflexivity|discriminate]|exact Ho|].
  cbn [tstate0 commands] in E1. change (cwalk_of []) with cwalk0 in E1. cbn [cwalk0 c_heads app] in E1.
  destruct (loop_outline _ _ _ _ _ _ Hv Ha) as (_ & B); [constructor|].
  destruct (commands a) as [|c0 cs] eqn:Ec; [injection H as <-; rewrite E1; exact E2|]. rewrite <- Ec in *. inv_bind H.
  assert (HX : exists l, fst a0 = commands a ++ l /\ Forall dull l /\ Forall neutral l).
  { destruct (last_note_end a <? mt).
    - destruct a0 as [c1 e]. destruct (insert_rest_dull _ _ _ _ _ _ _ Ha0) as (l & A1 & A2). destruct (insert_rest_neutral _ _ _ _ _ _ _ Ha0) as (l2 & A3 & A4).
      cbn [fst]. exists l. split; [exact A1|]. split; [exact A2|]. rewrite A1 in A3. apply app_inv_head in A3. subst. exact A4.
    - injection Ha0 as <-. exists []. rewrite app_nil_r. auto. }
  destruct HX as (l & El & Hl & Hn). rewrite El in H.
  assert (HS : Forall rest_silent (commands a ++ l)) by (apply Forall_app; split; [exact B|now apply neutral_silent]).
  unfold cwalk_of. rewrite (sustain_walk _ _ _ cwalk0 (le_n _) HS H). fold (cwalk_of (commands a ++ l)). rewrite cwalk_app, (proj2 (dull_walk l Hl _)), E1. exact E2.
Qed.
Lemma core_forall {B} (P : core -> B -> Prop) hs ns : Forall2 P (map core_of hs) ns -> Forall2 (fun h n => P (core_of h) n) hs ns.
Proof. revert ns. induction hs as [|h hs IH]; intros ns H; inversion H; subst; constructor; auto. Qed.

Lemma notes_any b tpb tf events max_time tr : Forall (fun ev => midi_valid (fst ev)) events -> track_new b events tpb max_time tf = Ok tr ->
  Forall2 (fun h n => h_vel h = n_vel n / 8 /\ h_cmd h = (if h_tied h then Tie else Note (n_key n + 0x68)) /\ (h_tied h = true -> h_slide h <> None)) (heads tr) (notes_of events).
Proof.
  intros Hv H. pose proof (core_forall _ _ _ (heads_any b events tpb max_time tf tr false Hv H ltac:(discriminate))) as K. revert K. apply Forall2_weaken.
  intros h n. unfold core_of, good_core. intros (A & B & C & _). auto.
Qed.
Lemma slides_any b tpb tf events max_time tr : Forall (fun ev => midi_valid (fst ev)) events -> off_keys events -> track_new b events tpb max_time tf = Ok tr ->
  Forall2 (fun h n => forall sl p q target, h_slide h = Some sl -> cmd sl = PitchSlide p q target -> target = n_key n + 0x68) (heads tr) (notes_of events).
Proof.
  intros Hv Ho H. pose proof (core_forall _ _ _ (heads_any b events tpb max_time tf tr true Hv H (fun _ => Ho))) as K. revert K. apply Forall2_weaken.
  intros h n. unfold core_of, good_core. intros (_ & _ & _ & D) sl p q tg. apply D. reflexivity.
Qed.

(** Every Note command carries a velocity. *)
Definition note_heard (pc : pcmd) : Prop := forall p, cmd pc = Note p -> exists v, velocity pc = Some v.
Lemma rest_note_heard b cmds e t tpb cmds' e' : insert_rest b cmds e t tpb = Ok (cmds', e') -> Forall note_heard cmds -> Forall note_heard cmds'.
Proof.
  intros E HS. unfold insert_rest in E. destruct (_ <? _); [|injection E as <- _; exact HS]. inv_bind E. inv_bind E. injection E as <- _.
  assert (K : Forall note_heard (cmds ++ repeat (rest_cmd 0x7f) (Z.to_nat (overflow_count a)))) by (apply Forall_app; split; [exact HS|]; apply Forall_forall; intros pc Hpc p E; apply repeat_spec in Hpc; subst; discriminate).
  destruct (_ <? _); [|exact K]. apply Forall_app. split; [exact K|]. constructor; [intros p E; discriminate|constructor].
Qed.
Lemma step_note_heard b tpb tf s ev s' : track_step b tpb tf s ev = Ok s' -> Forall note_heard (commands s) -> Forall note_heard (commands s').
Proof.
  destruct ev as [m t]. intros H HS.
  assert (Hadd : forall l, (forall pc, In pc l -> forall p, cmd pc = Note p -> exists v, velocity pc = Some v) -> Forall note_heard (commands s ++ l)).
  { intros l Hl. apply Forall_app. split; [exact HS|]. apply Forall_forall. exact Hl. }
  assert (Hrest : forall c1 e, insert_rest b (commands s) (last_note_end s) t tpb = Ok (c1, e) -> Forall note_heard c1).
  { intros c1 e E. exact (rest_note_heard _ _ _ _ _ _ _ E HS). }
  assert (Hone : forall c, (forall p, c <> Note p) -> Forall note_heard (commands s ++ [plain_cmd c])) by (intros c Hc; apply Hadd; intros pc [<-|[]] p E; destruct (Hc p E)).
  cbn [track_step] in H. destruct m as [dt e data|dt e|dt e data|].
  - destruct e; cbn [on_meta] in H; [|injection H as <-; exact HS]. inv_bind H. injection H as <-. cbn [set_commands commands]. apply Hone. discriminate.
  - destruct e as [ch k v|ch k v|ch k v|ch ctl d|ch p|ch p|ch d|ch]; try (injection H as <-; exact HS).
    + unfold on_note_off in H. destruct (note_start s); [|injection H as <-; exact HS]. inv_bind H. inv_bind H. inv_bind H. inv_bind H. injection H as <-. cbn [commands]. apply Hadd.
      intros pc [<-|Hpc] p E; [cbn [velocity]; eauto|]. unfold overflow_ties in Hpc. destruct (_ <? _); [|destruct Hpc]. apply in_app_or in Hpc. destruct Hpc as [Hpc|[<-|[]]]; [apply repeat_spec in Hpc; subst|]; discriminate.
    + unfold on_note_on in H. inv_bind H. destruct a as [c1 e]. inv_bind H. destruct (note_start s); [discriminate|]. injection H as <-. cbn [commands]. specialize (Hrest _ _ Ha).
      unfold push_slide in Ha0. destruct (portamento s); [|injection Ha0 as <-; exact Hrest]. destruct (last_opt c1) as [lc|]; [|injection Ha0 as <-; exact Hrest]. inv_bind Ha0. inv_bind Ha0.
      destruct (create_pitch_slide _ _ _) as [sl|] eqn:E; injection Ha0 as <-; [|exact Hrest]. apply Forall_app. split; [exact Hrest|]. constructor; [|constructor].
      unfold create_pitch_slide in E. intros p Ep. destruct (duration lc); destruct (cmd lc); try discriminate; injection E as <-; discriminate.
    + unfold on_control_change in H. destruct (ctl =? 5); [injection H as <-; exact HS|]. destruct (ctl =? 7); [inv_bind H; injection H as <-; cbn [set_commands commands]; apply Hone; discriminate|].
      destruct (ctl =? 37); [injection H as <-; exact HS|]. destruct (ctl =? 65); injection H as <-; exact HS.
    + unfold on_program_change in H. inv_bind H. destruct a as [c1 e]. inv_bind H. injection H as <-. cbn [commands]. apply Forall_app. split; [exact (Hrest _ _ Ha)|]. constructor; [intros q E; discriminate|constructor].
  - injection H as <-. exact HS.
  - injection H as <-. exact HS.
Qed.
Lemma sustain_note_heard n : forall l l', (length l <= n)%nat -> sustain_pass l = Ok l' -> Forall note_heard l -> Forall note_heard l'.
Proof.
  induction n as [|n IH]; intros l l' Hn H Hl. { destruct l; [|cbn in Hn; lia]. injection H as <-. constructor. }
  destruct l as [|c [|next l]]; [injection H as <-; constructor|injection H as <-; exact Hl|].
  rewrite sustain_pass_cons in H. inv_bind H. destruct a as [skip c']. inv_bind H. injection H as <-.
  inversion Hl as [|? ? Hc Hl1]; subst. inversion Hl1 as [|? ? Hnx Hl2]; subst.
  assert (Hcase : cmd c' = cmd c /\ velocity c' = velocity c).
  { unfold set_sustain in Ha. destruct (cmd c) eqn:Ec; try (injection Ha as <- <-; auto; fail). destruct (cmd next); try (injection Ha as <- <-; auto; fail).
    inv_bind Ha. inv_bind Ha. destruct (_ =? 0); [discriminate|]. destruct (_ || _); injection Ha as <- <-; auto. }
  destruct Hcase as [E1 E2]. constructor; [intros p E; rewrite E1 in E; rewrite E2; exact (Hc p E)|].
  destruct skip; [eapply (IH l)|eapply (IH (next :: l))]; try eassumption; cbn in *; lia.
Qed.
Lemma only_heads_any b tpb tf events max_time tr : track_new b events tpb max_time tf = Ok tr -> forall pc p, In pc tr -> cmd pc = Note p -> exists v, velocity pc = Some v.
Proof.
  intros H. assert (K : Forall note_heard tr); [|rewrite Forall_forall in K; intros pc p Hin; exact (K pc Hin p)]. unfold track_new in H. inv_bind H.
  assert (HA : Forall note_heard (commands a)).
  { assert (G : forall evs s s', ofold (track_step b tpb tf) evs s = Ok s' -> Forall note_heard (commands s) -> Forall note_heard (commands s')).
    { induction evs as [|ev evs IH]; intros s s' E HS; cbn [ofold] in E; [injection E as <-; exact HS|]. inv_bind E. eapply IH; [exact E|]. eapply step_note_heard; eassumption. }
    eapply G; [exact Ha|constructor]. }
  destruct (commands a) as [|c0 cs] eqn:Ec; [injection H as <-; constructor|]. rewrite <- Ec in *. inv_bind H.
  eapply sustain_note_heard; [apply le_n|exact H|]. destruct (last_note_end a <? max_time); [|injection Ha0 as <-; exact HA]. destruct a0 as [c1 e].
  exact (rest_note_heard _ _ _ _ _ _ _ Ha0 HA).
Qed.
