(** MidiLogProofs.v: the verbose output of the MIDI reader (C83). *)
From Coq Require Import ZArith List Bool Lia ZifyBool ZifyNat Permutation.
From Verif Require Import Base ProofLib Messages Midi MidiLog SpecMidi SpecNotes SpecVoices SpecMidiLog.
From Verif Require Import MergeProofs LoopProofs VoiceProofs DistributeProofs ReadProofs ReadProofs2 TotalProofs BaseVoiceProofs.
Import ListNotations.
Open Scope Z_scope.

(** ** The result is that of the silent reader *)
Lemma pbind_snd {A B} (m : printing A) (f : A -> printing B) (g : A -> outcome B) : (forall a, snd (f a) = g a) ->
  snd (pbind m f) = bind (snd m) g.
Proof. intros H. unfold pbind. destruct (snd m); cbn [bind snd]; auto. Qed.
Lemma distribute_same b ts : forall i chs, snd (distribute_printing b ts i chs) = ofold (distribute_track b) ts chs.
Proof.
  induction ts as [|tr ts IH]; intros i chs; [reflexivity|]. cbn [distribute_printing ofold].
  rewrite (pbind_snd _ _ (fun _ => let* c := distribute_track b chs tr in ofold (distribute_track b) ts c)); [reflexivity|].
  intros _. apply pbind_snd. intros c. apply IH.
Qed.
Lemma extract_same b ts : snd (extract_printing b ts) = tracks_to_channels b ts.
Proof.
  unfold extract_printing, tracks_to_channels. rewrite (pbind_snd _ _ (fun c => Ok (map sort_msgs c))) by reflexivity.
  now rewrite distribute_same.
Qed.
Lemma overlapping_same ch active : overlapping ch active = match overlapping_interval ch active with Some _ => true | None => false end.
Proof.
  unfold overlapping, overlapping_interval. induction ch as [|a ch IH]; [reflexivity|]. cbn [existsb fold_right].
  destruct (find (overlaps a) active) as [e|] eqn:E.
  - apply find_some in E. assert (H : existsb (overlaps a) active = true) by (apply existsb_exists; exists e; exact E). now rewrite H.
  - assert (H : existsb (overlaps a) active = false).
    { destruct (existsb (overlaps a) active) eqn:H; [|reflexivity]. apply existsb_exists in H. destruct H as (e & H1 & H2).
      rewrite (find_none _ _ E e H1) in H2. discriminate. }
    rewrite H. exact IH.
Qed.
Lemma voices_same ch active : forall i fe, snd (voices_printing ch active i fe) = valid_voices ch active i fe.
Proof.
  induction active as [|v active IH]; intros i fe; [reflexivity|]. cbn [voices_printing valid_voices]. rewrite overlapping_same.
  destruct (negb fe || negb match v with [] => true | _ => false end)%bool; [|apply IH].
  destruct (overlapping_interval ch v); cbn [snd]; rewrite IH; reflexivity.
Qed.

Lemma find_same chs : forall c active, snd (find_printing c chs active) = find_base_voices chs active.
Proof.
  induction chs as [|ch chs IH]; intros c active; [reflexivity|]. cbn [find_printing find_base_voices snd]. cbv zeta. cbn [snd].
  rewrite voices_same. induction (valid_voices ch active 0 false) as [|v vs IHv]; [reflexivity|].
  cbn [try_printing]. cbv zeta. rewrite IH. destruct (find_base_voices chs (upd active v (fun l => l ++ ch))); [reflexivity|]. cbn [snd]. exact IHv.
Qed.
Lemma step_same base o s m : snd (step_printing base o s m) = voice_step base o s m.
Proof.
  unfold step_printing. destruct m as [[? ? ?|d []| |] t]; try reflexivity. destruct (v_retrigger _ _ _ _ _ _); reflexivity.
Qed.
Lemma loop_same fuel : forall chs base order idx done s,
  snd (loop_printing fuel chs base order idx done s) = voices_loop fuel chs base order idx done s.
Proof.
  induction fuel as [|fuel IH]; intros chs base order idx done s; cbn [loop_printing voices_loop];
    (destruct (Nat.ltb done (length chs)); [|reflexivity]); [reflexivity|].
  apply pbind_snd. intros nc. apply pbind_snd. intros ch. apply pbind_snd. intros k. apply pbind_snd. intros ev. apply pbind_snd. intros idx'.
  cbv zeta. rewrite (pbind_snd _ _ (fun s' => voices_loop fuel chs base order idx' (if Nat.eqb (S k) (length ch) then S done else done) s')) by (intros; apply IH).
  now rewrite step_same.
Qed.
Lemma merge_same chs base order : snd (merge_printing chs base order) = channels_to_voices chs base order.
Proof.
  unfold merge_printing, channels_to_voices. rewrite (pbind_snd _ _ (fun s => Ok (v_voices s))) by reflexivity. now rewrite loop_same.
Qed.
Lemma read_same b verbose cbs complete order : snd (read_printing b verbose cbs complete order) = midi_read b cbs complete order.
Proof.
  assert (H : snd (read_printing b true cbs complete order) = midi_read b cbs complete order).
  { unfold read_printing, midi_read. cbv zeta.
    rewrite (pbind_snd _ _ (fun _ => midi_read b cbs complete order)); [reflexivity|]. intros _. unfold midi_read.
    apply pbind_snd. intros r. destruct complete; [|reflexivity].
    rewrite (pbind_snd _ _ (fun chs => let* iv := all_intervals b chs 0 0 in
      match find_base_voices (fst iv) (repeat [] 8) with None => Err ECouldntFit
      | Some base => let* vs := channels_to_voices chs base order in Ok (mk_handler vs (r_tpb r) (snd iv)) end)); [now rewrite extract_same|].
    intros chs. apply pbind_snd. intros iv. unfold pbind at 1. cbn [print snd fst]. rewrite find_same.
    destruct (find_base_voices (fst iv) (repeat [] 8)) as [base|]; [|reflexivity].
    rewrite (pbind_snd _ _ (fun vs => Ok (mk_handler vs (r_tpb r) (snd iv)))) by reflexivity. now rewrite merge_same. }
  destruct verbose; [exact H|]. unfold read_printing in *. cbv zeta in *. exact H.
Qed.
Lemma read_quiet b cbs complete order : fst (read_printing b false cbs complete order) = [].
Proof. reflexivity. Qed.

(** ** The search for base voices *)
Definition tried (c : nat) (log : list line) (r : option nat) : option nat :=
  fold_left (fun r l => match l with Trying c' v => if Nat.eqb c' c then Some v else r | _ => r end) log r.
Lemma tried_app c l1 l2 r : tried c (l1 ++ l2) r = tried c l2 (tried c l1 r).
Proof. apply fold_left_app. Qed.
Lemma tried_cons j c v l r : tried j (Trying c v :: l) r = tried j l (if Nat.eqb c j then Some v else r).
Proof. reflexivity. Qed.
Lemma voices_untried c ch active : forall i fe r, tried c (fst (voices_printing ch active i fe)) r = r.
Proof.
  induction active as [|v active IH]; intros i fe r; [reflexivity|]. cbn [voices_printing].
  destruct (negb fe || _)%bool; [|apply IH]. destruct (overlapping_interval ch v); cbn [fst]; [|apply IH]. cbn. apply IH.
Qed.
Lemma find_earlier chs : forall c active j r, (j < c)%nat -> tried j (fst (find_printing c chs active)) r = r.
Proof.
  induction chs as [|ch chs IH]; intros c active j r Hj; [reflexivity|]. cbn [find_printing]. cbv zeta. cbn [fst].
  change (tried j (Searching c :: ?l) r) with (tried j l r). rewrite tried_app, voices_untried.
  change (tried j (Possible ?v :: ?l) r) with (tried j l r).
  generalize (snd (voices_printing ch active 0 false)). intros vs. revert r. induction vs as [|v vs IHv]; intros r; [reflexivity|].
  cbn [try_printing]. cbv zeta. destruct (snd (find_printing (S c) chs _)); cbn [fst].
  - rewrite tried_cons. destruct (Nat.eqb_spec c j); [lia|]. apply IH. lia.
  - rewrite tried_cons. destruct (Nat.eqb_spec c j); [lia|]. rewrite tried_app, IH by lia. apply IHv.
Qed.
Lemma find_tried chs : forall c active base, snd (find_printing c chs active) = Some base ->
  length base = length chs /\ forall j v r, nth_error base j = Some v -> tried (c + j) (fst (find_printing c chs active)) r = Some v.
Proof.
  induction chs as [|ch chs IH]; intros c active base H.
  { injection H as <-. split; [reflexivity|]. intros [|j] v r Hv; discriminate. }
  cbn [find_printing] in *. cbv zeta in *. cbn [fst snd] in *.
  assert (Hgo : length base = S (length chs) /\ forall j v r, nth_error base j = Some v ->
    tried (c + j) (fst (try_printing (find_printing (S c) chs) c ch active (snd (voices_printing ch active 0 false)))) r = Some v).
  { revert H. generalize (snd (voices_printing ch active 0 false)). intros vs.
    induction vs as [|v vs IHv]; [discriminate|]. cbn [try_printing]. cbv zeta.
    destruct (snd (find_printing (S c) chs _)) as [rest|] eqn:E; cbn [fst snd]; intros H.
    - injection H as <-. destruct (IH _ _ _ E) as (HL & Hr). split; [cbn [length]; congruence|]. intros j w r Hw.
      destruct j as [|j]; cbn [nth_error] in Hw.
      + injection Hw as <-. rewrite Nat.add_0_r. rewrite tried_cons. rewrite Nat.eqb_refl. apply find_earlier. lia.
      + rewrite tried_cons. destruct (Nat.eqb_spec c (c + S j)); [lia|]. replace (c + S j)%nat with (S c + j)%nat by lia. apply Hr, Hw.
    - destruct (IHv H) as (HL & Hr). split; [exact HL|]. intros j w r Hw. rewrite tried_cons, tried_app. apply Hr, Hw. }
  destruct Hgo as (HL & Hr). split; [exact HL|]. intros j v r Hv.
  change (tried (c + j) (Searching c :: ?l) r) with (tried (c + j) l r). rewrite tried_app, voices_untried.
  change (tried (c + j) (Possible ?v :: ?l) r) with (tried (c + j) l r). apply Hr, Hv.
Qed.
Lemma find_failed chs : forall c active, snd (find_printing c chs active) = None ->
  exists l, fst (find_printing c chs active) = l ++ [Possible []].
Proof.
  induction chs as [|ch chs IH]; intros c active H; [discriminate|]. cbn [find_printing] in *. cbv zeta in *. cbn [fst snd] in *.
  destruct (voices_printing ch active 0 false) as [lg vs]. cbn [fst snd] in *. destruct vs as [|v vs].
  { exists (Searching c :: lg). reflexivity. }
  assert (Hgo : forall vs, vs <> [] -> snd (try_printing (find_printing (S c) chs) c ch active vs) = None ->
    exists l, fst (try_printing (find_printing (S c) chs) c ch active vs) = l ++ [Possible []]).
  { clear - IH. induction vs as [|v vs IHv]; [congruence|]. intros _. cbn [try_printing]. cbv zeta.
    destruct (snd (find_printing (S c) chs _)) as [rest|] eqn:E; cbn [fst snd]; [discriminate|]. intros H.
    destruct vs as [|w vs].
    - destruct (IH _ _ E) as (l & El). rewrite El. exists (Trying c v :: l). cbn [try_printing fst]. rewrite app_nil_r. reflexivity.
    - destruct IHv as (l & El); [discriminate|exact H|]. rewrite El. eexists. rewrite app_assoc, app_comm_cons. reflexivity. }
  destruct (Hgo (v :: vs)) as (l & El); [discriminate|exact H|]. rewrite El. eexists (Searching c :: lg ++ Possible (v :: vs) :: l).
  cbn [app]. f_equal. rewrite <- app_assoc. reflexivity.
Qed.

(** ** The merge *)
Definition own_of (base : list nat) : nat -> option nat := nth_error base.
Lemma guests_app own v l1 l2 : guests own v (l1 ++ l2) = guests own v l1 ++ guests own v l2.
Proof. apply flat_map_app. Qed.
Lemma guests_none own v l : (forall d c k vel t, ~ In (MidiEvent d (NoteOn c k vel), t) l) -> guests own v l = [].
Proof.
  induction l as [|[m t] l IH]; intros H; [reflexivity|]. unfold guests. cbn [flat_map]. fold (guests own v l). rewrite IH.
  - destruct m as [? ? ?|d [c k vel|c k vel|c k vel|c ctl dat|c pr|c pr|c dat|c]|? ? ?|]; try reflexivity. exfalso. eapply H. left. reflexivity.
  - intros d c k vel t' Hin. eapply H. right. exact Hin.
Qed.
Lemma guests_off own v o d c k vel t w : guests own v (on_voice o (MidiEvent d (NoteOff c k vel), t) w) = [].
Proof. apply guests_none. intros d' c' k' vel' t' H. unfold on_voice in H. destruct o; [|destruct H]. destruct (Nat.eqb w n); [|destruct H]. destruct H as [H|[]]. discriminate. Qed.
Lemma guests_quiet own v l : quiet l -> guests own v l = [].
Proof. intros H. apply guests_none. intros d c k vel t Hin. unfold quiet in H. rewrite Forall_forall in H. specialize (H _ Hin). discriminate. Qed.

Lemma retrigger_no_err s d c k vel t e : v_retrigger s d c k vel t <> Err e.
Proof.
  unfold v_retrigger. intros H. destruct (nth_error (v_active s) (Z.to_nat c)) as [n|]; cbn [or_panic bind] in H; [|discriminate].
  destruct (notes_get n k) as [voice|]; [|discriminate].
  destruct (set_nth (v_active s) (Z.to_nat c) (notes_remove n k)); cbn [or_panic bind] in H; [|discriminate].
  unfold push_at in H. destruct (nth_error (v_voices s) voice); [|discriminate]. destruct (set_nth _ voice _); discriminate.
Qed.
Lemma choose_active base bv a u : voice_active a bv = true -> choose_voice base bv a = Some u -> ~ In u base.
Proof.
  intros Ha H. unfold choose_voice in H. rewrite Ha in H. apply find_some in H. destruct H as [_ H].
  intros Hin. apply andb_true_iff in H. destruct H as [H _]. apply negb_true_iff in H.
  assert (E : existsb (fun b => Nat.eqb b u) base = true) by (apply existsb_exists; exists u; split; [exact Hin|apply Nat.eqb_refl]). congruence.
Qed.
(** The voice chosen for a note is the one it is looked up in afterwards. *)
Lemma note_on_choice base s m d c k vel s1 : 0 < vel -> v_note_on s base m d c k vel = Ok s1 ->
  exists s' bv u, v_retrigger s d c k vel (snd m) = Ok s' /\ nth_error base (Z.to_nat c) = Some bv /\
    choose_voice base bv (v_active s') = Some u /\ lookup (v_active s1) c k = Some u.
Proof.
  intros Hv H. unfold v_note_on in H. inv_bind H. rewrite (proj2 (Z.ltb_lt 0 vel) Hv) in H. inv_bind H. apply or_panic_ok in Ha0.
  destruct (choose_voice base a0 (v_active a)) as [u|] eqn:Eu; [|discriminate]. inv_bind H. inv_bind H. apply or_panic_ok in Ha2.
  inv_bind H. destruct a3 as [pre vc]. inv_bind H. destruct a3 as [[nm vp] perc]. inv_bind H. injection H as <-.
  exists a, a0, u. split; [exact Ha|]. split; [exact Ha0|]. split; [exact Eu|]. cbn [v_active]. unfold lookup.
  pose proof (set_nth_spec _ _ _ _ Ha2 (Z.to_nat c)) as Hs. rewrite Nat.eqb_refl in Hs. rewrite (nth_error_nth _ _ _ Hs).
  rewrite notes_get_insert, Z.eqb_refl. reflexivity.
Qed.
Lemma step_told base o s x l s1 : base_ok base -> vinv s -> remembered s -> typed x -> permutes o ->
  step_printing base o s x = (l, Ok s1) -> vinv s1 /\ remembered s1 /\
  ((l = [] /\ forall v, guests (own_of base) v (vv s1 v) = guests (own_of base) v (vv s v)) \/
   (exists c u, (c < 16)%nat /\ l = [Occupied c (snd x) base; Using u] /\
      forall v, guests (own_of base) v (vv s1 v) = guests (own_of base) v (vv s v) ++ if Nat.eqb u v then [(c, snd x)] else [])).
Proof.
  intros Hb Hs Hr Hx Ho H. destruct x as [m t]. destruct Hx as (Hc & Ht & Hvel). cbn [fst snd] in *.
  assert (E : vstep base s (m, t) = Ok s1).
  { rewrite <- (voice_step_order base o s (m, t) Ho), <- (step_same base o s (m, t)), H. reflexivity. }
  assert (Hinv : vinv s1 /\ remembered s1).
  { destruct (run_spec base [(m, t)] Hb s s1 Hs Hr) as (H1 & H2 & _); auto.
    cbn [ofold]. rewrite E. reflexivity. }
  split; [apply Hinv|]. split; [apply Hinv|].
  destruct (step_result base s m t Hs Hb Hc) as [(s2 & E2 & _ & px & Hpx & Hstep)|[E2 _]]; rewrite E in E2; [|discriminate]. injection E2 as <-.
  assert (Hg : forall v, guests (own_of base) v (vv s1 v) = guests (own_of base) v (vv s v) ++ guests (own_of base) v (px v)).
  { intros v. rewrite Hpx. apply guests_app. }
  assert (Hone : forall v, (forall d c k vel, m <> MidiEvent d (NoteOn c k vel)) -> px v = [] \/ px v = [(m, t)] -> guests (own_of base) v (px v) = []).
  { intros v Hm [-> | ->]; [reflexivity|]. apply guests_none. intros d c k vel t' [E'|[]]. injection E' as E' _. eapply Hm; exact E'. }
  assert (Hsil : l = [] -> (forall v, guests (own_of base) v (px v) = []) -> 
     ((l = [] /\ forall v, guests (own_of base) v (vv s1 v) = guests (own_of base) v (vv s v)) \/
      (exists c u, (c < 16)%nat /\ l = [Occupied c t base; Using u] /\
      forall v, guests (own_of base) v (vv s1 v) = guests (own_of base) v (vv s v) ++ if Nat.eqb u v then [(c, t)] else []))).
  { intros El Hn. left. split; [exact El|]. intros v. rewrite Hg, Hn, app_nil_r. reflexivity. }
  destruct m as [? [] ?|d [c k vel|c k vel|c k vel|c ctl dat|c pr|c pr|c dat|c]|? ? ?|]; cbn [step_printing] in H.
  all: try (apply Hsil; [unfold silent in H; congruence|]; intros v; apply Hone; [discriminate|]; apply Hstep; fail).
  - apply Hsil; [unfold silent in H; congruence|]. intros v. destruct Hstep as (Hp & _). rewrite Hp. apply guests_off.
  - destruct Hstep as (_ & _ & Hstep).
    destruct (v_retrigger s d c k vel t) as [s'|e|p|] eqn:Er.
    2:{ exfalso. eapply retrigger_no_err. exact Er. }
    2,3: (unfold silent in H; injection H as _ H; unfold voice_step in H; cbn [fst] in H; unfold v_note_on in H; cbn [snd] in H; rewrite Er in H; discriminate).
    injection H as <- H. unfold voice_step in H. cbn [fst] in H.
    destruct (0 <? vel) eqn:Evel.
    + destruct (note_on_choice base s (MidiEvent d (NoteOn c k vel), t) d c k vel s1 ltac:(lia) H) as (s'' & bv & u & Er' & Hbv & Hch & Hlook).
      cbn [snd] in Er'. rewrite Er in Er'. injection Er' as <-.
      destruct Hstep as (voice & _ & Hp & Hlk & _). unfold channel_ok in Hc. cbn [addressee event_channel] in Hc.
      assert (voice = u).
      { specialize (Hlk c k Hc). rewrite Hlook in Hlk. unfold with_ in Hlk. rewrite !Z.eqb_refl in Hlk. cbn [andb] in Hlk. congruence. }
      subst voice.
      assert (Hpg : forall v, guests (own_of base) v (px v) = if Nat.eqb v u then (if Nat.eqb bv u then [] else [(Z.to_nat c, t)]) else []).
      { intros v. rewrite Hp, guests_app, guests_off. cbn [app]. destruct (Nat.eqb_spec v u) as [->|]; [|reflexivity].
        rewrite guests_app, (guests_quiet _ _ _ (prelude_quiet s c k d t u Hr)). cbn [app guests flat_map]. unfold own_of. rewrite Hbv.
        destruct (Nat.eqb bv u); reflexivity. }
      unfold choice_printing. rewrite Hbv. destruct (voice_active (v_active s') bv) eqn:Eact.
      * right. rewrite Hch. exists (Z.to_nat c), u. split; [lia|]. split; [reflexivity|]. intros v. rewrite Hg, Hpg.
        pose proof (choose_active _ _ _ _ Eact Hch) as Hnb.
        destruct (Nat.eqb_spec bv u) as [->|]; [exfalso; apply Hnb; eapply nth_error_In; exact Hbv|].
        rewrite (Nat.eqb_sym u v). destruct (Nat.eqb v u); reflexivity.
      * left. split; [reflexivity|]. unfold choose_voice in Hch. rewrite Eact in Hch. injection Hch as <-. intros v. rewrite Hg, Hpg, Nat.eqb_refl.
        destruct (Nat.eqb v bv); rewrite app_nil_r; reflexivity.
    + apply Hsil; [reflexivity|]. intros v. destruct Hstep as (Hp & _). rewrite Hp. apply guests_off.
  - apply Hsil; [unfold silent in H; congruence|]. intros v. apply Hone; [discriminate|]. destruct Hstep as (_ & _ & _ & Hp & _). rewrite Hp. destruct (hears s base c v); auto.
  - apply Hsil; [unfold silent in H; congruence|]. intros v. apply Hone; [discriminate|]. destruct Hstep as (_ & _ & _ & Hp & _). rewrite Hp. destruct (hears s base c v); auto.
  - apply Hsil; [unfold silent in H; congruence|]. intros v. apply Hone; [discriminate|]. destruct Hstep as (_ & _ & _ & Hp & _). rewrite Hp. destruct (hears s base c v); auto.
Qed.

Definition pair_lines (base : list nat) (x : nat * Z * nat) : list line := [Occupied (fst (fst x)) (snd (fst x)) base; Using (snd x)].
Definition uses (v : nat) (l : list (nat * Z * nat)) : list (nat * Z) :=
  flat_map (fun x : nat * Z * nat => if Nat.eqb (snd x) v then [fst x] else []) l.

Lemma pbind_ok {A B} (m : printing A) (f : A -> printing B) log b : pbind m f = (log, Ok b) ->
  exists l1 a l2, m = (l1, Ok a) /\ f a = (l2, Ok b) /\ log = l1 ++ l2.
Proof.
  unfold pbind. destruct m as [l1 [a|e|p|]]; cbn [fst snd]; try discriminate. destruct (f a) as [l2 r] eqn:E. cbn [fst snd]. intros [= <- <-].
  exists l1, a, l2. auto.
Qed.
Lemma pbind_err {A B} (m : printing A) (f : A -> printing B) log e : pbind m f = (log, Err e) ->
  m = (log, Err e) \/ exists l1 a l2, m = (l1, Ok a) /\ f a = (l2, Err e) /\ log = l1 ++ l2.
Proof.
  unfold pbind. destruct m as [l1 [a|e'|p|]]; cbn [fst snd]; try discriminate.
  - destruct (f a) as [l2 r] eqn:E. cbn [fst snd]. intros [= <- ->]. right. exists l1, a, l2. auto.
  - intros [= <- <-]. auto.
Qed.
Lemma silent_ok {A} (m : outcome A) l a : silent m = (l, Ok a) -> l = [] /\ m = Ok a.
Proof. unfold silent. intros [= <- ->]. auto. Qed.
Ltac inv_p H :=
  apply pbind_ok in H; let l := fresh "l" in let a := fresh "x" in let l2 := fresh "l" in let H1 := fresh "P" in let El := fresh "El" in
  destruct H as (l & a & l2 & H1 & H & El); apply silent_ok in H1; destruct H1 as (-> & H1); cbn [app] in El; subst.

Lemma loop_told base order chs : base_ok base -> Forall (Forall typed) chs -> (forall k, permutes (order k)) ->
  forall fuel idx done s log s1, vinv s -> remembered s -> loop_printing fuel chs base order idx done s = (log, Ok s1) ->
  exists l, log = flat_map (pair_lines base) l /\ Forall (fun x => (fst (fst x) < 16)%nat) l /\
    forall v, guests (own_of base) v (vv s1 v) = guests (own_of base) v (vv s v) ++ uses v l.
Proof.
  intros Hb Hty Ho. induction fuel as [|fuel IH]; intros idx done s log s1 Hs Hr H; cbn [loop_printing] in H;
    (destruct (Nat.ltb done (length chs)); [|injection H as <- <-; exists []; split; [reflexivity|]; split; [constructor|]; intros v; cbn; rewrite app_nil_r; reflexivity]);
    [discriminate|].
  inv_p H. inv_p H. inv_p H. inv_p H. inv_p H. apply pbind_ok in H. destruct H as (l1 & s2 & l2 & Hst & H & ->).
  apply or_panic_ok in P0, P2. assert (Hx : typed x2).
  { rewrite Forall_forall in Hty. specialize (Hty _ (nth_error_In _ _ P0)). rewrite Forall_forall in Hty. exact (Hty _ (nth_error_In _ _ P2)). }
  destruct (step_told base _ s x2 l1 s2 Hb Hs Hr Hx (Ho fuel) Hst) as (Hs2 & Hr2 & Hcase).
  destruct (IH _ _ _ _ _ Hs2 Hr2 H) as (l & -> & Hl & Hg). destruct Hcase as [(-> & Hsame)|(c & u & Hc & -> & Hmore)].
  - exists l. split; [reflexivity|]. split; [exact Hl|]. intros v. rewrite Hg, Hsame. reflexivity.
  - exists ((c, snd x2, u) :: l). split; [reflexivity|]. split; [constructor; [exact Hc|exact Hl]|]. intros v. rewrite Hg, Hmore, <- app_assoc. f_equal.
Qed.
Definition errless {A} (m : outcome A) : Prop := forall e, m <> Err e.
Lemma errless_bind {A B} (m : outcome A) (f : A -> outcome B) : errless m -> (forall a, errless (f a)) -> errless (bind m f).
Proof. intros H1 H2 e. destruct m; cbn [bind]; [apply H2|exact (fun E => H1 _ eq_refl)|discriminate|discriminate]. Qed.
Lemma errless_panic {A} p (o : option A) : errless (or_panic p o).
Proof. intros e. destruct o; discriminate. Qed.
Lemma errless_ok {A} (a : A) : errless (Ok a).
Proof. intros e. discriminate. Qed.
Lemma errless_pushes voice l : forall vs : list (list tmsg), errless (ofold (fun vs x => push_at vs voice x) l vs).
Proof.
  induction l as [|x l IH]; intros vs; [apply errless_ok|]. cbn [ofold]. apply errless_bind; [|exact IH].
  unfold push_at. destruct (nth_error vs voice); [apply errless_panic|]. intros e. discriminate.
Qed.
Lemma chosen_no_err (s : vstate) ch note u abs_time m d c vel e :
  (let* n := or_panic PIndex (nth_error (v_active s) ch) in
   let* a := or_panic PIndex (set_nth (v_active s) ch (notes_insert n note u)) in
   let* r := refresh s ch u abs_time in
   let '(pre, vc) := r in
   let* q := note_messages s m d c note vel in
   let '(nm, vp, perc) := q in
   let* vs := ofold (fun vs x => push_at vs u x) (pre ++ nm) (v_voices s) in
   Ok (mk_vstate vs (v_ctrl s) vp (v_pitch s) vc a perc)) <> Err e.
Proof.
  revert e. apply errless_bind; [apply errless_panic|]. intros n. apply errless_bind; [apply errless_panic|]. intros a.
  apply errless_bind.
  { unfold refresh. apply errless_bind; [apply errless_panic|]. intros lc. destruct (Nat.eqb _ _); [apply errless_ok|].
    repeat (apply errless_bind; [apply errless_panic|]; intros ?). apply errless_ok. }
  intros [pre vc]. apply errless_bind.
  { unfold note_messages. destruct (c =? 9); [|apply errless_ok]. destruct (v_perc s =? _); [apply errless_ok|].
    apply errless_bind; [apply errless_panic|]. intros ?. apply errless_ok. }
  intros [[nm vp] perc]. apply errless_bind; [apply errless_pushes|]. intros ?. apply errless_ok.
Qed.
Lemma loop_stuck base order chs : base_ok base -> Forall (Forall typed) chs -> (forall k, permutes (order k)) ->
  forall fuel idx done s log e, vinv s -> remembered s -> loop_printing fuel chs base order idx done s = (log, Err e) ->
  exists l c t, log = flat_map (pair_lines base) l ++ [Occupied c t base] /\ (c < 16)%nat /\ Forall (fun x => (fst (fst x) < 16)%nat) l.
Proof.
  assert (Hsil : forall A (m : outcome A) log e, silent m = (log, Err e) -> m = Err e) by (unfold silent; congruence).
  assert (Hpan : forall A p (o : option A) e, or_panic p o <> Err e) by (intros A p [a|] e; discriminate).
  intros Hb Hty Ho. induction fuel as [|fuel IH]; intros idx done s log e Hs Hr H; cbn [loop_printing] in H;
    (destruct (Nat.ltb done (length chs)); [|discriminate]); [discriminate|].
  do 5 (apply pbind_err in H; destruct H as [H|H]; [apply Hsil in H; exfalso; exact (Hpan _ _ _ _ H)|];
    let Hm := fresh "Hm" in destruct H as (? & ? & ? & Hm & H & ->); apply silent_ok in Hm; destruct Hm as (-> & Hm); apply or_panic_ok in Hm; cbn [app]).
  cbv zeta in H.
  match goal with P0 : nth_error chs _ = Some ?ch, P2 : nth_error ?ch _ = Some ?x |- _ => assert (Hx : exists y, y = x /\ typed y) end.
  { eexists. split; [reflexivity|]. rewrite Forall_forall in Hty. 
    match goal with P0 : nth_error chs _ = Some ?ch, P2 : nth_error ?ch _ = Some ?x |- _ =>
      specialize (Hty _ (nth_error_In _ _ P0)); rewrite Forall_forall in Hty; exact (Hty _ (nth_error_In _ _ P2)) end. }
  destruct Hx as (x9 & Ex9 & Hx). rewrite <- Ex9 in *. clear Ex9. 
  apply pbind_err in H. destruct H as [H|(l1 & s2 & l2 & Hst & H & ->)].
  - destruct x9 as [m t]. assert (E : vstep base s (m, t) = Err e).
    { rewrite <- (voice_step_order base (order fuel) s (m, t) (Ho fuel)), <- (step_same base (order fuel) s (m, t)), H. reflexivity. }
    destruct (step_result base s m t Hs Hb (proj1 Hx)) as [(s2 & E2 & _)|[E2 (d & c & k & vel & -> & Hvel & _)]]; [congruence|].
    cbn [step_printing] in H. destruct (v_retrigger s d c k vel t) as [s'|e'|p|] eqn:Er.
    2:{ exfalso. eapply retrigger_no_err. exact Er. }
    2,3: (unfold silent in H; injection H as _ H; unfold voice_step in H; cbn [fst] in H; unfold v_note_on in H; cbn [snd] in H; rewrite Er in H; discriminate).
    injection H as <- H. rewrite (proj2 (Z.ltb_lt 0 vel) Hvel).
    unfold voice_step in H. cbn [fst] in H. unfold v_note_on in H. cbn [snd] in H. rewrite Er in H. cbn [bind] in H.
    rewrite (proj2 (Z.ltb_lt 0 vel) Hvel) in H. unfold choice_printing.
    destruct (nth_error base (Z.to_nat c)) as [bv|] eqn:Ebv; cbn [or_panic bind] in H; [|discriminate].
    pose proof (proj1 Hx) as Hc. unfold channel_ok in Hc. cbn [fst addressee event_channel] in Hc.
    destruct (choose_voice base bv (v_active s')) as [u|] eqn:Eu.
    + exfalso. revert H. apply chosen_no_err.
    + assert (Ea : voice_active (v_active s') bv = true).
      { unfold choose_voice in Eu. destruct (voice_active (v_active s') bv); [reflexivity|discriminate]. }
      rewrite Ea. exists [], (Z.to_nat c), t. split; [reflexivity|]. split; [lia|constructor].
  - destruct (step_told base _ s x9 l1 s2 Hb Hs Hr Hx (Ho fuel) Hst) as (Hs2 & Hr2 & Hcase).
    destruct (IH _ _ _ _ _ Hs2 Hr2 H) as (l & c & t & -> & Hc & Hl). destruct Hcase as [(-> & _)|(c' & u & Hc' & -> & _)].
    + exists l, c, t. auto.
    + exists ((c', snd x9, u) :: l), c, t. split; [reflexivity|]. split; [exact Hc|]. constructor; [exact Hc'|exact Hl].
Qed.

(** ** The whole output *)
Definition plain_line (l : line) : Prop := match l with Occupied _ _ _ => False | _ => True end.
Lemma moves_prefix p l : Forall plain_line p -> told_moves (p ++ l) = told_moves l.
Proof. induction 1 as [|x p Hx _ IH]; [reflexivity|]. cbn [app]. destruct x; try exact IH. destruct Hx. Qed.
Lemma moves_pairs base l : told_moves (flat_map (pair_lines base) l) = map (fun x => (fst x, Some (snd x))) l.
Proof. induction l as [|[[c t] u] l IH]; [reflexivity|]. cbn. f_equal. exact IH. Qed.
Lemma moves_stuck base l c t : told_moves (flat_map (pair_lines base) l ++ [Occupied c t base]) = map (fun x => (fst x, Some (snd x))) l ++ [(c, t, None)].
Proof. induction l as [|[[c' t'] u] l IH]; [reflexivity|]. cbn. f_equal. exact IH. Qed.
Lemma tried_none c l r : Forall (fun x => match x with Trying _ _ => False | _ => True end) l -> tried c l r = r.
Proof. induction 1 as [|x l Hx _ IH]; [reflexivity|]. destruct x; try exact IH. destruct Hx. Qed.
Lemma pairs_untried base l : Forall (fun x => match x with Trying _ _ => False | _ => True end) (flat_map (pair_lines base) l).
Proof. induction l as [|x l IH]; [constructor|]. cbn [flat_map pair_lines app]. constructor; [exact I|]. constructor; [exact I|]. exact IH. Qed.
Lemma voices_plain ch active : forall i fe, Forall plain_line (fst (voices_printing ch active i fe)).
Proof.
  induction active as [|v active IH]; intros i fe; [constructor|]. cbn [voices_printing].
  destruct (negb fe || _)%bool; [|apply IH]. destruct (overlapping_interval ch v); cbn [fst]; [|apply IH]. constructor; [exact I|apply IH].
Qed.
Lemma find_plain chs : forall c active, Forall plain_line (fst (find_printing c chs active)).
Proof.
  induction chs as [|ch chs IH]; intros c active; [constructor|]. cbn [find_printing]. cbv zeta. cbn [fst].
  constructor; [exact I|]. apply Forall_app. split; [apply voices_plain|]. constructor; [exact I|].
  generalize (snd (voices_printing ch active 0 false)). intros vs. induction vs as [|v vs IHv]; [constructor|]. cbn [try_printing]. cbv zeta.
  destruct (snd (find_printing (S c) chs _)); cbn [fst]; (constructor; [exact I|]); [apply IH|]. apply Forall_app. split; [apply IH|exact IHv].
Qed.
Lemma extract_told b ts l chs : extract_printing b ts = (l, Ok chs) -> l = map Extracting (seq 0 (length ts)).
Proof.
  assert (H : forall i c l chs, distribute_printing b ts i c = (l, Ok chs) -> l = map Extracting (seq i (length ts))).
  { induction ts as [|tr ts IH]; intros i c l0 chs0 H; cbn [distribute_printing] in H; [apply silent_ok in H; destruct H as [-> _]; reflexivity|].
    apply pbind_ok in H. destruct H as (l1 & [] & l2 & H1 & H & ->). injection H1 as <-. inv_p H. apply IH in H. subst. reflexivity. }
  unfold extract_printing. intros E. apply pbind_ok in E. destruct E as (l1 & c & l2 & H1 & E & ->). apply silent_ok in E. destruct E as [-> _].
  rewrite app_nil_r. eapply H. exact H1.
Qed.
Lemma extracting_plain n i : Forall plain_line (map Extracting (seq i n)).
Proof. apply Forall_forall. intros x Hx. apply in_map_iff in Hx. destruct Hx as (k & <- & _). exact I. Qed.
Lemma extracting_untried n i : Forall (fun x => match x with Trying _ _ => False | _ => True end) (map Extracting (seq i n)).
Proof. apply Forall_forall. intros x Hx. apply in_map_iff in Hx. destruct Hx as (k & <- & _). exact I. Qed.

(** What a verbose read that found base voices has printed. *)
Lemma read_shape b cbs complete order log h : Forall callback_typed cbs -> (forall k, permutes (order k)) ->
  read_printing b true cbs complete order = (log, Ok h) ->
  exists chs ivs mx base l, tracks_to_channels b (tracks_of cbs) = Ok chs /\ all_intervals b chs 0 0 = Ok (ivs, mx) /\ base_ok base /\
    snd (find_printing 0 ivs (repeat [] 8)) = Some base /\
    log = Reading :: map Extracting (seq 0 (length (tracks_of cbs))) ++ fst (find_printing 0 ivs (repeat [] 8)) ++ flat_map (pair_lines base) l /\
    Forall (fun x => (fst (fst x) < 16)%nat) l /\
    forall v, guests (own_of base) v (nth v (h_voices h) []) = uses v l.
Proof.
  intros Hcb Ho H. pose proof (read_same b true cbs complete order) as Hsame. rewrite H in Hsame. cbn [snd] in Hsame. symmetry in Hsame.
  destruct (read_ok_tracks _ _ _ _ _ Hsame) as (-> & _ & tpb & Er).
  destruct (midi_read_inv _ _ _ _ _ Hsame Hcb) as (r & chs & ivs & mx & base & Er' & _ & Hch & Hok & Hiv & Hbase & Hb & Hv & _).
  rewrite Er in Er'. injection Er' as <-. cbn [r_tracks] in Hch.
  unfold read_printing in H. cbv zeta in H. apply pbind_ok in H. destruct H as (l1 & [] & l2 & H1 & H & ->). injection H1 as <-.
  inv_p H. rewrite Er in P. injection P as <-. cbn [r_tracks r_tpb] in H.
  apply pbind_ok in H. destruct H as (l1 & chs' & l3 & H1 & H & ->). pose proof (extract_told _ _ _ _ H1) as ->.
  assert (chs' = chs). { pose proof (extract_same b (tracks_of cbs)) as E. rewrite H1 in E. cbn [snd] in E. congruence. } subst chs'.
  inv_p H. rewrite Hiv in P. injection P as <-. cbn [fst snd] in H.
  apply pbind_ok in H. destruct H as (l1 & [] & l4 & H2 & H & ->). injection H2 as <-.
  pose proof (find_same ivs 0 (repeat [] 8)) as Hfs. rewrite Hbase in Hfs. rewrite Hfs in H.
  apply pbind_ok in H. destruct H as (l1 & vs & l5 & H2 & H & ->). apply silent_ok in H. destruct H as [-> H]. injection H as <-. rewrite app_nil_r.
  unfold merge_printing in H2. apply pbind_ok in H2. destruct H2 as (l6 & s & l7 & H2 & H3 & ->). apply silent_ok in H3. destruct H3 as [-> H3]. injection H3 as <-.
  rewrite app_nil_r. destruct Hok as (_ & Hty & _).
  destruct (loop_told base order chs Hb Hty Ho _ _ _ _ _ _ (vinv0 base) (remembered0 base) H2) as (l & -> & Hl & Hg).
  exists chs, ivs, mx, base, l. split; [exact Hch|]. split; [exact Hiv|]. split; [exact Hb|]. split; [exact Hfs|]. split; [reflexivity|]. split; [exact Hl|].
  intros v. specialize (Hg v). rewrite vv0 in Hg. exact Hg.
Qed.

Lemma guests_ext own own' v l : (forall c, (c < 16)%nat -> own c = own' c) ->
  Forall (fun x : tmsg => match fst x with MidiEvent _ (NoteOn c _ _) => (Z.to_nat c < 16)%nat | _ => True end) l -> guests own v l = guests own' v l.
Proof.
  intros H. induction 1 as [|[m t] l Hx _ IH]; [reflexivity|]. unfold guests in *. cbn [flat_map]. rewrite IH. f_equal.
  destruct m as [? ? ?|d [c k vel|c k vel|c k vel|c ctl dat|c pr|c pr|c dat|c]|? ? ?|]; try reflexivity. cbn [fst] in Hx. rewrite (H _ Hx). reflexivity.
Qed.
Lemma find_later chs : forall c active j r, (c + length chs <= j)%nat -> tried j (fst (find_printing c chs active)) r = r.
Proof.
  induction chs as [|ch chs IH]; intros c active j r Hj; [reflexivity|]. cbn [find_printing]. cbv zeta. cbn [fst length] in *.
  change (tried j (Searching c :: ?l) r) with (tried j l r). rewrite tried_app, voices_untried.
  change (tried j (Possible ?v :: ?l) r) with (tried j l r).
  generalize (snd (voices_printing ch active 0 false)). intros vs. revert r. induction vs as [|v vs IHv]; intros r; [reflexivity|].
  cbn [try_printing]. cbv zeta. destruct (snd (find_printing (S c) chs _)); cbn [fst].
  - rewrite tried_cons. destruct (Nat.eqb_spec c j); [lia|]. apply IH. lia.
  - rewrite tried_cons. destruct (Nat.eqb_spec c j); [lia|]. rewrite tried_app, IH by lia. apply IHv.
Qed.
Lemma log_tried n ivs base l c : snd (find_printing 0 ivs (repeat [] 8)) = Some base ->
  Forall (fun x => match x with Trying _ _ => False | _ => True end) l ->
  last_tried c (Reading :: map Extracting (seq 0 n) ++ fst (find_printing 0 ivs (repeat [] 8)) ++ l) = nth_error base c.
Proof.
  intros Hf Hl. change (last_tried c ?l) with (tried c l None). change (Reading :: ?x) with ([Reading] ++ x). rewrite !tried_app, (tried_none _ l) by exact Hl.
  change (tried c [Reading] None) with (@None nat). rewrite (tried_none _ (map _ _)) by apply extracting_untried.
  destruct (find_tried _ _ _ _ Hf) as (HL & Hr). destruct (nth_error base c) as [v|] eqn:E.
  - apply (Hr c v None E).
  - apply find_later. apply nth_error_None in E. rewrite <- HL. exact E.
Qed.
Lemma log_moves n ivs l : told_moves (Reading :: map Extracting (seq 0 n) ++ fst (find_printing 0 ivs (repeat [] 8)) ++ l) = told_moves l.
Proof. cbn [told_moves]. rewrite !moves_prefix; [reflexivity|apply find_plain|apply extracting_plain]. Qed.
Lemma occupied_late n ivs l c t bs : In (Occupied c t bs) (Reading :: map Extracting (seq 0 n) ++ fst (find_printing 0 ivs (repeat [] 8)) ++ l) -> In (Occupied c t bs) l.
Proof.
  intros [H|H]; [discriminate|]. apply in_app_iff in H. destruct H as [H|H].
  { pose proof (extracting_plain n 0) as F. rewrite Forall_forall in F. destruct (F _ H). }
  apply in_app_iff in H. destruct H as [H|H]; [|exact H]. pose proof (find_plain ivs 0 (repeat [] 8)) as F. rewrite Forall_forall in F. destruct (F _ H).
Qed.
Lemma uses_told v l : flat_map (fun x : nat * Z * option nat => match x with (c, t, Some w) => if Nat.eqb w v then [(c, t)] else [] | (_, _, None) => [] end)
  (map (fun x : nat * Z * nat => (fst x, Some (snd x))) l) = uses v l.
Proof.
  unfold uses. induction l as [|[[c t] u] l IH]; [reflexivity|]. cbn. rewrite <- IH. destruct (Nat.eqb u v); reflexivity.
Qed.
Lemma guests_same own own' v l : (forall c, own c = own' c) -> guests own v l = guests own' v l.
Proof.
  intros H. unfold guests. apply flat_map_ext. intros [m t]. destruct m as [? ? ?|d [c k vel|c k vel|c k vel|c ctl dat|c pr|c pr|c dat|c]|? ? ?|]; try reflexivity.
  rewrite H. reflexivity.
Qed.
Lemma read_told b cbs complete order log h : Forall callback_typed cbs -> (forall k, permutes (order k)) ->
  read_printing b true cbs complete order = (log, Ok h) ->
  (forall c, (c < 16)%nat -> exists v, (v < 8)%nat /\ last_tried c log = Some v) /\
  Forall (fun x => snd x <> None) (told_moves log) /\
  (forall v, told_guests v log = guests (fun c => last_tried c log) v (nth v (h_voices h) [])) /\
  (forall c t bs, In (Occupied c t bs) log -> (c < 16)%nat /\ length bs = 16%nat /\ forall c', nth_error bs c' = last_tried c' log).
Proof.
  intros Hcb Ho H. destruct (read_shape _ _ _ _ _ _ Hcb Ho H) as (chs & ivs & mx & base & l & _ & _ & Hb & Hf & -> & Hl & Hg).
  assert (Hlt : forall c, last_tried c (Reading :: map Extracting (seq 0 (length (tracks_of cbs))) ++ fst (find_printing 0 ivs (repeat [] 8)) ++ flat_map (pair_lines base) l) = nth_error base c).
  { intros c. apply log_tried; [exact Hf|apply pairs_untried]. }
  destruct Hb as (HL & Hv). split; [|split; [|split]].
  - intros c Hc. destruct (nth_error base c) as [v|] eqn:E; [|apply nth_error_None in E; lia]. exists v. split; [|rewrite Hlt; exact E].
    rewrite Forall_forall in Hv. apply Hv. apply nth_error_In in E. exact E.
  - rewrite log_moves, moves_pairs. apply Forall_forall. intros x Hx. apply in_map_iff in Hx. destruct Hx as (y & <- & _). discriminate.
  - intros v. unfold told_guests. rewrite log_moves, moves_pairs, uses_told, <- (Hg v). apply guests_same. intros c. symmetry. apply Hlt.
  - intros c t bs Hi. apply occupied_late in Hi. apply in_flat_map in Hi. destruct Hi as (x & Hx & Hi). cbn in Hi. destruct Hi as [Hi|[Hi|[]]]; [|discriminate].
    injection Hi as <- <- <-. rewrite Forall_forall in Hl. split; [exact (Hl _ Hx)|]. split; [exact HL|]. intros c'. symmetry. apply Hlt.
Qed.
Lemma read_stuck b cbs order log e : Forall callback_typed cbs -> (forall k, permutes (order k)) ->
  read_printing b true cbs true order = (log, Err e) ->
  e = ECouldntFit /\
  ((exists p, log = p ++ [Possible []] /\ told_moves log = []) \/
   (exists p c t bs, log = p ++ [Occupied c t bs] /\ (c < 16)%nat /\ (forall c', (c' < 16)%nat -> exists v, (v < 8)%nat /\ last_tried c' log = Some v) /\
      exists l, told_moves log = l ++ [(c, t, None)] /\ Forall (fun x => snd x <> None) l)).
Proof.
  intros Hcb Ho H. pose proof (read_same b true cbs true order) as Hsame. rewrite H in Hsame. cbn [snd] in Hsame. symmetry in Hsame.
  destruct (read_failure _ _ _ _ Hcb Ho Hsame) as (-> & chs & ivs & mx & Hch & Hiv & Hbase). split; [reflexivity|].
  destruct (format1 false cbs) eqn:Ef.
  2:{ unfold midi_read in Hsame. destruct (callbacks_bad cbs [] 0 Ef) as [p E]. rewrite E in Hsame. discriminate. }
  destruct (callbacks_ok cbs 0 Ef) as [tpb Er].
  assert (Hx : exists lg, extract_printing b (tracks_of cbs) = (lg, Ok chs)).
  { pose proof (extract_same b (tracks_of cbs)) as E. destruct (extract_printing b (tracks_of cbs)) as [lg o]. cbn in E. exists lg. congruence. }
  destruct Hx as (lg & Hx). pose proof (extract_told _ _ _ _ Hx) as ->.
  unfold read_printing in H. cbv zeta in H. rewrite Er in H. cbn [silent pbind fst snd print r_tracks r_tpb] in H. rewrite Hx in H. cbn [silent pbind fst snd print app] in H.
  rewrite Hiv in H. cbn [silent pbind fst snd print app] in H. pose proof (find_same ivs 0 (repeat [] 8)) as Hfs.
  set (n := length (tracks_of cbs)) in *. set (fp := find_printing 0 ivs (repeat [] 8)) in *.
  destruct (snd fp) as [base|] eqn:E.
  - right. assert (Hb : base_ok base).
    { eapply base_ok_found; [|symmetry; exact Hfs]. apply all_intervals_length in Hiv. cbn [fst] in Hiv. rewrite Hiv. apply (channels_ok_read _ _ _ (tracks_typed _ Hcb) Hch). }
    pose proof (channels_ok_read _ _ _ (tracks_typed _ Hcb) Hch) as (_ & Hty & _).
    destruct (merge_printing chs base order) as [ml mo] eqn:Em.
    assert (Hmo : mo = Err ECouldntFit /\ log = Reading :: map Extracting (seq 0 n) ++ fst fp ++ ml).
    { destruct mo as [x|x|x|]; cbn [pbind silent fst snd] in H; try discriminate H. injection H as <- ->. auto. }
    destruct Hmo as (-> & ->). unfold merge_printing in Em. apply pbind_err in Em. destruct Em as [Em|(? & ? & ? & _ & Em & _)]; [|discriminate Em].
    destruct (loop_stuck base order chs Hb Hty Ho _ _ _ _ _ _ (vinv0 base) (remembered0 base) Em) as (l & c & t & -> & Hc & Hl).
    exists (Reading :: map Extracting (seq 0 n) ++ fst fp ++ flat_map (pair_lines base) l), c, t, base.
    split; [cbn [app]; rewrite <- !app_assoc; reflexivity|]. split; [exact Hc|]. split.
    + intros c' Hc'. destruct Hb as (HL & Hv). assert (Hu : Forall (fun x => match x with Trying _ _ => False | _ => True end) (flat_map (pair_lines base) l ++ [Occupied c t base]))
        by (apply Forall_app; split; [apply pairs_untried|repeat constructor]).
      unfold fp. rewrite (log_tried n ivs base _ c' E Hu).
      destruct (nth_error base c') as [v|] eqn:E'; [|apply nth_error_None in E'; lia]. exists v. split; [|reflexivity].
      rewrite Forall_forall in Hv. apply Hv. apply nth_error_In in E'. exact E'.
    + unfold fp. rewrite log_moves, moves_stuck. eexists. split; [reflexivity|]. apply Forall_forall. intros x Hx'. apply in_map_iff in Hx'. destruct Hx' as (y & <- & _). discriminate.
  - left. destruct (find_failed _ _ _ E) as (l & El). cbn [pbind silent fst snd] in H. injection H as <-. rewrite app_nil_r.
    exists (Reading :: map Extracting (seq 0 n) ++ l). split.
    + fold fp in El. rewrite El. cbn [app]. rewrite <- app_assoc. reflexivity.
    + cbn [told_moves]. rewrite !moves_prefix by apply extracting_plain. rewrite <- (app_nil_r (fst fp)), moves_prefix by apply find_plain. reflexivity.
Qed.

(** ** Overlaps *)
Definition searched (log : list line) (r : option nat) : option nat :=
  fold_left (fun r l => match l with Searching c => Some c | _ => r end) log r.
Lemma searched_app l1 l2 r : searched (l1 ++ l2) r = searched l2 (searched l1 r).
Proof. apply fold_left_app. Qed.
Definition overlap_true (ivs : list (list interval)) (p : list line) (v : nat) (e : interval) : Prop :=
  exists c a, last_searched p = Some c /\ (i_channel e < c)%nat /\ last_tried (i_channel e) p = Some v /\
    In e (nth (i_channel e) ivs []) /\ In a (nth c ivs []) /\ overlaps a e = true.
Definition truthful (ivs : list (list interval)) (p l : list line) : Prop :=
  forall p1 v e q, l = p1 ++ Overlaps v e :: q -> overlap_true ivs (p ++ p1) v e.
Lemma truthful_nil ivs p : truthful ivs p [].
Proof. intros p1 v e q H. destruct p1; discriminate. Qed.
Lemma truthful_cons ivs p x l : (forall v e, x = Overlaps v e -> overlap_true ivs p v e) -> truthful ivs (p ++ [x]) l -> truthful ivs p (x :: l).
Proof.
  intros Hx Hl p1 v e q H. destruct p1 as [|y p1].
  - injection H as -> _. rewrite app_nil_r. apply Hx. reflexivity.
  - injection H as <- H. replace (p ++ x :: p1) with ((p ++ [x]) ++ p1) by (rewrite <- app_assoc; reflexivity). exact (Hl _ _ _ _ H).
Qed.
Lemma truthful_app ivs l1 : forall p l2, truthful ivs p l1 -> truthful ivs (p ++ l1) l2 -> truthful ivs p (l1 ++ l2).
Proof.
  induction l1 as [|x l1 IH]; intros p l2 H1 H2; [rewrite app_nil_r in H2; exact H2|]. cbn [app]. apply truthful_cons.
  - intros v e ->. specialize (H1 [] v e l1 eq_refl). rewrite app_nil_r in H1. exact H1.
  - apply IH; [|rewrite <- app_assoc; exact H2]. intros p1 v e q H. rewrite <- app_assoc. apply (H1 (x :: p1) v e q). cbn. rewrite H. reflexivity.
Qed.
Lemma truthful_silent ivs p l : (forall v e, ~ In (Overlaps v e) l) -> truthful ivs p l.
Proof. intros H p1 v e q ->. exfalso. apply (H v e), in_app_iff. right. left. reflexivity. Qed.
Lemma overlapping_interval_in ch active e : overlapping_interval ch active = Some e -> In e active /\ exists a, In a ch /\ overlaps a e = true.
Proof.
  induction ch as [|a ch IH]; [discriminate|]. cbn [overlapping_interval fold_right]. destruct (find (overlaps a) active) as [e'|] eqn:E.
  - intros [= ->]. apply find_some in E. destruct E. split; [assumption|]. exists a. split; [left; reflexivity|assumption].
  - intros H. destruct (IH H) as (H1 & a' & H2 & H3). split; [exact H1|]. exists a'. split; [right; exact H2|exact H3].
Qed.
Lemma last_tried_snoc c p x : (forall c' v, x <> Trying c' v) -> last_tried c (p ++ [x]) = last_tried c p.
Proof. intros H. change (tried c (p ++ [x]) None = tried c p None). rewrite tried_app. destruct x; try reflexivity. edestruct H. reflexivity. Qed.
Lemma voices_truthful ivs c ch : ch = nth c ivs [] -> forall active i fe p, last_searched p = Some c ->
  (forall k e, In e (nth k active []) -> (i_channel e < c)%nat /\ last_tried (i_channel e) p = Some (i + k)%nat /\ In e (nth (i_channel e) ivs [])) ->
  truthful ivs p (fst (voices_printing ch active i fe)).
Proof.
  intros Hch. induction active as [|v active IH]; intros i fe p Hs Ha; [apply truthful_nil|]. cbn [voices_printing].
  assert (Hstep : forall fe' p', last_searched p' = Some c -> (forall c', last_tried c' p' = last_tried c' p) -> truthful ivs p' (fst (voices_printing ch active (S i) fe'))).
  { intros fe' p' Hs' Ht'. apply IH; [exact Hs'|]. intros k e He. destruct (Ha (S k) e He) as (H1 & H2 & H3). split; [exact H1|]. split; [|exact H3].
    rewrite Ht', H2. f_equal. lia. }
  destruct (negb fe || _)%bool; [|apply Hstep; auto]. destruct (overlapping_interval ch v) as [e|] eqn:E; cbn [fst]; [|apply Hstep; auto].
  apply truthful_cons.
  - intros v' e' [= <- <-]. destruct (overlapping_interval_in _ _ _ E) as (He & a & H1 & H2). destruct (Ha O e He) as (H3 & H4 & H5).
    exists c, a. rewrite Nat.add_0_r in H4. rewrite <- Hch. repeat split; assumption.
  - apply Hstep.
    + change (searched (p ++ [Overlaps i e]) None = Some c). rewrite searched_app. exact Hs.
    + intros c'. apply last_tried_snoc. discriminate.
Qed.
Lemma voices_unsearched ch active : forall i fe r, searched (fst (voices_printing ch active i fe)) r = r.
Proof.
  induction active as [|v active IH]; intros i fe r; [reflexivity|]. cbn [voices_printing].
  destruct (negb fe || _)%bool; [|apply IH]. destruct (overlapping_interval ch v); cbn [fst]; [|apply IH]. cbn. apply IH.
Qed.
Lemma nth_upd_app (active : list (list interval)) v ch k e : In e (nth k (upd active v (fun l => l ++ ch)) []) ->
  In e (nth k active []) \/ (k = v /\ In e ch).
Proof.
  unfold upd. revert v k. induction active as [|x active IH]; intros v k H.
  - destruct v, k; cbn in H; destruct H.
  - destruct v as [|v]; cbn [nth_error] in H.
    + cbn [firstn skipn app] in H. destruct k as [|k]; cbn [nth] in *; [|auto]. apply in_app_iff in H. tauto.
    + specialize (IH v). destruct (nth_error active v) as [y|].
      * cbn [firstn skipn app] in H. destruct k as [|k]; cbn [nth] in *; [auto|]. destruct (IH k H) as [H'|[-> H']]; auto.
      * auto.
Qed.
Lemma find_truthful ivs : (forall c e, In e (nth c ivs []) -> i_channel e = c) -> forall chs c active p,
  (forall k, nth k chs [] = nth (c + k) ivs []) ->
  (forall k e, In e (nth k active []) -> (i_channel e < c)%nat /\ last_tried (i_channel e) p = Some k /\ In e (nth (i_channel e) ivs [])) ->
  truthful ivs p (fst (find_printing c chs active)).
Proof.
  intros Hch. induction chs as [|ch chs IH]; intros c active p Hn Ha; [apply truthful_nil|]. cbn [find_printing]. cbv zeta. cbn [fst].
  assert (Hc : ch = nth c ivs []) by (specialize (Hn O); rewrite Nat.add_0_r in Hn; exact Hn).
  apply truthful_cons; [discriminate|].
  assert (Ha' : forall k e, In e (nth k active []) -> (i_channel e < c)%nat /\ last_tried (i_channel e) (p ++ [Searching c]) = Some k /\ In e (nth (i_channel e) ivs [])).
  { intros k e He. destruct (Ha k e He) as (H1 & H2 & H3). split; [exact H1|]. split; [rewrite last_tried_snoc by discriminate; exact H2|exact H3]. }
  apply truthful_app.
  { apply (voices_truthful ivs c ch Hc); [|intros k e He; rewrite Nat.add_0_l; apply Ha', He].
    change (searched (p ++ [Searching c]) None = Some c). rewrite searched_app. reflexivity. }
  apply truthful_cons; [discriminate|].
  match goal with |- truthful ivs ?q _ => set (p2 := q) end.
  assert (Ha2 : forall k e, In e (nth k active []) -> (i_channel e < c)%nat /\ last_tried (i_channel e) p2 = Some k /\ In e (nth (i_channel e) ivs [])).
  { intros k e He. destruct (Ha' k e He) as (H1 & H2 & H3). split; [exact H1|]. split; [|exact H3]. unfold p2.
    rewrite last_tried_snoc by discriminate. change (tried (i_channel e) ((p ++ [Searching c]) ++ fst (voices_printing ch active 0 false)) None = Some k).
    rewrite tried_app, voices_untried. exact H2. }
  clearbody p2. clear Ha Ha' p. generalize (snd (voices_printing ch active 0 false)). intros vs. revert p2 Ha2.
  induction vs as [|v vs IHv]; intros p Ha; [apply truthful_nil|]. cbn [try_printing]. cbv zeta.
  assert (Hrec : truthful ivs (p ++ [Trying c v]) (fst (find_printing (S c) chs (upd active v (fun l => l ++ ch))))).
  { apply IH.
    - intros k. specialize (Hn (S k)). cbn [nth] in Hn. rewrite Hn. f_equal. lia.
    - intros k e He. change (last_tried ?x (p ++ [Trying c v])) with (tried x (p ++ [Trying c v]) None). rewrite tried_app, tried_cons.
      destruct (nth_upd_app _ _ _ _ _ He) as [H|[-> H]].
      + destruct (Ha k e H) as (H1 & H2 & H3). split; [lia|]. split; [|exact H3]. destruct (Nat.eqb_spec c (i_channel e)); [lia|]. exact H2.
      + rewrite Hc in H. pose proof (Hch _ _ H) as Hi. split; [lia|]. split; [|rewrite Hi; exact H]. rewrite Hi, Nat.eqb_refl. reflexivity. }
  destruct (snd (find_printing (S c) chs _)) eqn:E; cbn [fst].
  - apply truthful_cons; [discriminate|exact Hrec].
  - apply truthful_cons; [discriminate|]. apply truthful_app; [exact Hrec|]. apply IHv. intros k e He. destruct (Ha k e He) as (H1 & H2 & H3).
    split; [exact H1|]. split; [|exact H3]. change (tried (i_channel e) ((p ++ [Trying c v]) ++ fst (find_printing (S c) chs (upd active v (fun l => l ++ ch)))) None = Some k).
    rewrite tried_app, find_earlier by lia. rewrite tried_app, tried_cons. destruct (Nat.eqb_spec c (i_channel e)); [lia|]. exact H2.
Qed.
(** Each interval carries the number of its channel, starts at a time that is not negative and ends at a note message of the channel. *)
Definition interval_of (c : nat) (ch : list tmsg) (e : interval) : Prop :=
  i_channel e = c /\ 0 <= i_start e /\ exists m, In (m, i_end e) ch /\ (note_on m || note_off m)%bool = true.
Lemma interval_of_step b i ch l : incl l ch -> Forall (fun x => 0 <= snd x) l -> forall s s', ofold (interval_step b i) l s = Ok s' ->
  0 <= is_last_end s -> Forall (interval_of i ch) (is_intervals s) -> Forall (interval_of i ch) (is_intervals s').
Proof.
  intros Hi Hp. induction l as [|[m t] l IH]; intros s s' H H0 HF; cbn [ofold] in H; [injection H as <-; exact HF|]. inv_bind H.
  inversion Hp; subst. cbn [snd] in *.
  assert (Hin : In (m, t) ch) by (apply Hi; left; reflexivity).
  assert (Hpush : (note_on m || note_off m)%bool = true -> Forall (interval_of i ch) (push_interval i s t)).
  { intros Hm. unfold push_interval. destruct (is_last_end s <? t); [|exact HF]. apply Forall_app. split; [exact HF|]. constructor; [|constructor].
    split; [reflexivity|]. split; [exact H0|]. exists m. auto. }
  assert (Hs : 0 <= is_last_end a /\ Forall (interval_of i ch) (is_intervals a)).
  { destruct m as [? ? ?|d e|? ? ?|]; try (injection Ha as <-; auto). destruct e; cbn [interval_step] in Ha; try (injection Ha as <-; auto).
    - inv_bind Ha. injection Ha as <-. cbn. split; [assumption|]. apply Hpush. reflexivity.
    - inv_bind Ha. injection Ha as <-. cbn. split; [assumption|]. apply Hpush. cbn. destruct (velocity =? 0) eqn:E; cbn; try reflexivity; try lia. }
  destruct Hs as (H1' & H2'). refine (IH (fun x Hx => Hi x (or_intror Hx)) _ a s' H H1' H2'); assumption.
Qed.
Lemma all_intervals_of b chs : Forall (Forall (fun x => 0 <= snd x)) chs -> forall i mx ivs mx', all_intervals b chs i mx = Ok (ivs, mx') ->
  forall c e, In e (nth c ivs []) -> interval_of (i + c) (nth c chs []) e.
Proof.
  induction 1 as [|ch chs Hp _ IH]; intros i mx ivs mx' H c e He; cbn [all_intervals] in H.
  - injection H as <- <-. destruct c; destruct He.
  - inv_bind H. inv_bind H. injection H as <- <-. destruct a0 as [ivs' mx2]. cbn [fst] in He. destruct c as [|c]; cbn [nth] in *.
    + rewrite Nat.add_0_r. pose proof (interval_of_step _ _ _ _ (incl_refl ch) Hp _ _ Ha (Z.le_refl 0) (Forall_nil _)) as HF.
      rewrite Forall_forall in HF. apply HF, He.
    + replace (i + S c)%nat with (S i + c)%nat by lia. eapply IH; eauto.
Qed.

Definition nolap (l : list line) : Prop := forall v e, ~ In (Overlaps v e) l.
Lemma nolap_pbind {A B} (m : printing A) (f : A -> printing B) : nolap (fst m) -> (forall a, nolap (fst (f a))) -> nolap (fst (pbind m f)).
Proof.
  intros Hm Hf v e. destruct m as [l [a|x|x|]]; cbn [pbind fst snd] in *; try exact (Hm v e). intros H. apply in_app_iff in H. destruct H as [H|H]; [exact (Hm v e H)|exact (Hf a v e H)].
Qed.
Lemma nolap_silent {A} (m : outcome A) : nolap (fst (silent m)).
Proof. intros v e []. Qed.
Lemma nolap_merge chs base order : nolap (fst (merge_printing chs base order)).
Proof.
  apply nolap_pbind; [|intros; apply nolap_silent].
  generalize (S (list_sum (map (@length tmsg) chs))) as fuel, (repeat O (length chs)) as idx, (length (filter is_nil chs)) as done, (vstate0 base) as s.
  induction fuel as [|fuel IH]; intros idx done s; cbn [loop_printing]; (destruct (Nat.ltb done (length chs)); [|apply nolap_silent]); [apply nolap_silent|].
  do 5 (apply nolap_pbind; [apply nolap_silent|intros ?]). apply nolap_pbind; [|intros ?; apply IH].
  unfold step_printing. destruct a2 as [m t]. destruct m as [? ? ?|d [c k vel|c k vel|c k vel|c ctl dat|c pr|c pr|c dat|c]|? ? ?|]; try apply nolap_silent.
  destruct (v_retrigger s d c k vel t) as [s'| | |]; try apply nolap_silent. cbn [fst]. intros v e H. destruct (0 <? vel); [|destruct H].
  unfold choice_printing in H. destruct (nth_error base (Z.to_nat c)) as [n|]; [|destruct H]. destruct (voice_active (v_active s') n); [|destruct H].
  destruct H as [H|H]; [discriminate|]. destruct (choose_voice base n (v_active s')); [|destruct H]. destruct H as [H|[]]. discriminate.
Qed.
Lemma nolap_extract b ts : nolap (fst (extract_printing b ts)).
Proof.
  apply nolap_pbind; [|intros; apply nolap_silent]. generalize O as i, (repeat (@nil tmsg) 16) as chs.
  induction ts as [|tr ts IH]; intros i chs; cbn [distribute_printing]; [apply nolap_silent|].
  apply nolap_pbind; [intros v e [H|[]]; discriminate|intros _]. apply nolap_pbind; [apply nolap_silent|intros ?; apply IH].
Qed.
Lemma read_truthful b cbs complete order log r v e : Forall callback_typed cbs -> read_printing b true cbs complete order = (log, r) -> In (Overlaps v e) log ->
  exists chs ivs mx, tracks_to_channels b (tracks_of cbs) = Ok chs /\ all_intervals b chs 0 0 = Ok (ivs, mx) /\ truthful ivs [] log.
Proof.
  intros Hcb H Hin. unfold read_printing in H. cbv zeta in H. destruct (format1 false cbs) eqn:Ef.
  2:{ destruct (callbacks_bad cbs [] 0 Ef) as [p E]. rewrite E in H. injection H as <- <-. destruct Hin as [Hin|[]]; discriminate. }
  destruct (callbacks_ok cbs 0 Ef) as [tpb Er]. rewrite Er in H. cbn [silent pbind fst snd print r_tracks r_tpb] in H.
  destruct complete; [|injection H as <- <-; destruct Hin as [Hin|[]]; discriminate].
  pose proof (nolap_extract b (tracks_of cbs)) as Hne. pose proof (extract_same b (tracks_of cbs)) as Hes.
  destruct (extract_printing b (tracks_of cbs)) as [le oe] eqn:Ee. cbn [fst snd] in Hne, Hes.
  assert (Hcut : log = Reading :: le -> False) by (intros ->; destruct Hin as [Hin|Hin]; [discriminate|exact (Hne _ _ Hin)]).
  destruct oe as [chs|x|x|]; cbn [pbind fst snd app] in H; try (exfalso; apply Hcut; congruence).
  destruct (all_intervals b chs 0 0) as [[ivs mx]|x|x|] eqn:Hiv; cbn [pbind silent fst snd app] in H; try (exfalso; apply Hcut; rewrite app_nil_r in H; congruence).
  exists chs, ivs, mx. split; [auto|]. split; [exact Hiv|]. pose proof (extract_told _ _ _ _ Ee) as ->.
  assert (Hty : Forall (Forall (fun x : tmsg => 0 <= snd x)) chs).
  { pose proof (channels_ok_read _ _ _ (tracks_typed _ Hcb) (eq_sym Hes)) as (_ & Hty & _). eapply Forall_impl; [|exact Hty]. intros l Hl. eapply Forall_impl; [|exact Hl]. intros x (_ & Hx & _). lia. }
  assert (Ht : truthful ivs ([Reading] ++ map Extracting (seq 0 (length (tracks_of cbs)))) (fst (find_printing 0 ivs (repeat [] 8)))).
  { apply find_truthful; [|reflexivity|].
    - intros c e' He. destruct (all_intervals_of _ _ Hty _ _ _ _ Hiv _ _ He) as (Hc & _). exact Hc.
    - intros k e' He. exfalso. clear - He. rewrite nth_repeat in He. exact He. }
  assert (Hall : exists l, nolap l /\ log = ([Reading] ++ map Extracting (seq 0 (length (tracks_of cbs)))) ++ fst (find_printing 0 ivs (repeat [] 8)) ++ l).
  { destruct (snd (find_printing 0 ivs (repeat [] 8))) as [base|].
    - exists (fst (pbind (merge_printing chs base order) (fun vs => silent (Ok (mk_handler vs tpb mx))))). split.
      + apply nolap_pbind; [apply nolap_merge|intros; apply nolap_silent].
      + injection H as <- _. rewrite <- app_assoc. reflexivity.
    - exists []. split; [intros ? ? []|]. injection H as <- _. rewrite <- app_assoc. reflexivity. }
  destruct Hall as (l & Hl & ->). apply truthful_app.
  - apply truthful_silent. intros v' e' [H'|H']; [discriminate|]. exact (Hne v' e' H').
  - apply truthful_app; [exact Ht|]. apply truthful_silent. exact Hl.
Qed.

Lemma before_end_of c ch e t : interval_of c ch e -> t < i_end e -> before_end ch t.
Proof. intros (_ & _ & m & Hm & Hn) Ht. exists m, (i_end e). auto. Qed.
Lemma read_overlaps b cbs complete order p v e q r : Forall callback_typed cbs -> file_ok (tracks_of cbs) ->
  (b = Debug \/ forall c l, stable_sort_of (file_order (tracks_of cbs) c) l -> balanced l) ->
  read_printing b true cbs complete order = (p ++ Overlaps v e :: q, r) ->
  exists c l l' t, last_searched p = Some c /\ last_tried (i_channel e) p = Some v /\ (i_channel e < c < 16)%nat /\
    stable_sort_of (file_order (tracks_of cbs) c) l /\ stable_sort_of (file_order (tracks_of cbs) (i_channel e)) l' /\
    i_start e <= t < i_end e /\ 0 < sounding l t /\ 0 < sounding l' t.
Proof.
  intros Hcb Hf Hb H. destruct (read_truthful _ _ _ _ _ _ v e Hcb H) as (chs & ivs & mx & Hch & Hiv & Ht).
  { apply in_app_iff. right. left. reflexivity. }
  destruct (Ht p v e q eq_refl) as (c & a & H1 & H2 & H3 & H4 & H5 & H6). cbn [app] in H1, H3.
  destruct (merge_ok b _ Hf) as (chs' & Hch' & HL & Hs). rewrite Hch in Hch'. injection Hch' as <-.
  pose proof (channels_ok_read _ _ _ (tracks_typed _ Hcb) Hch) as (_ & Hty & _).
  assert (Hp : Forall (Forall (fun x : tmsg => 0 <= snd x)) chs).
  { eapply Forall_impl; [|exact Hty]. intros l Hl. eapply Forall_impl; [|exact Hl]. intros x (_ & Hx & _). lia. }
  pose proof (all_intervals_of _ _ Hp _ _ _ _ Hiv _ _ H4) as He. pose proof (all_intervals_of _ _ Hp _ _ _ _ Hiv _ _ H5) as Ha. cbn [Nat.add] in He, Ha.
  pose proof (channels_intervals _ _ _ _ _ (tracks_typed _ Hcb) Hch Hiv) as HF.
  pose proof (all_intervals_length _ _ _ _ _ Hiv) as HLi. cbn [fst] in HLi.
  assert (Hc16 : (c < 16)%nat). { destruct (Nat.lt_ge_cases c 16) as [Hc|Hc]; [exact Hc|]. rewrite nth_overflow in H5 by lia. destruct H5. }
  assert (Hget : forall k, (k < 16)%nat -> proper (nth k ivs []) /\ (forall t, 0 <= t -> before_end (nth k chs []) t -> (sounds (nth k ivs []) t <-> 0 < sounding (nth k chs []) t))).
  { intros k Hk. destruct (forall2_nth _ _ _ k (nth k chs []) HF) as (iv & Ei & Hpr & Hex); [apply nth_error_nth'; lia|].
    rewrite (nth_error_nth _ _ [] Ei). split; [exact Hpr|]. apply Hex. destruct Hb as [->|Hb]; [left; reflexivity|right; apply (Hb k), Hs]. }
  destruct (Hget c Hc16) as (P1 & X1). destruct (Hget (i_channel e)) as (P2 & X2); [lia|].
  unfold proper in P1, P2. rewrite Forall_forall in P1, P2. specialize (P1 _ H5). specialize (P2 _ H4).
  unfold overlaps in H6. exists c, (nth c chs []), (nth (i_channel e) chs []), (Z.max (i_start a) (i_start e)).
  destruct Ha as (Ha1 & Ha2 & Ha3). destruct He as (He1 & He2 & He3).
  split; [exact H1|]. split; [exact H3|]. split; [lia|]. split; [apply Hs|]. split; [apply Hs|]. split; [lia|]. split.
  - apply X1; [lia| |exists a; split; [exact H5|lia]]. apply (before_end_of c _ a); [split; auto|lia].
  - apply X2; [lia| |exists e; split; [exact H4|lia]]. apply (before_end_of (i_channel e) _ e); [split; auto|lia].
Qed.
