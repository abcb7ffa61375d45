(** GridProofs.v: music on a grid is placed exactly (C79). *)
From Coq Require Import ZArith List Bool Lia ZifyBool ZifyNat Permutation Sorted.
From Verif Require Import Base ProofLib F32 Messages Command Track Song Paths Midi Cli SpecMidi SpecNotes SpecVoices SpecTime SpecVoice SpecNspc SpecLoop SpecRom
  SpecAram SpecSong SpecPlayback SpecFile SpecHeard SpecPlaced SpecGrid TrackProofs SlideProofs AramMore SongProofs PlaybackProofs PlacedProofs
  SplitProofs MergeProofs LoopProofs DistributeProofs VoiceProofs ReadProofs ReadProofs2 InstrProofs FileProofs HeardProofs SettingProofs EndProofs FilePlay.
Ltac Zify.zify_post_hook ::= Z.div_mod_to_equations.
Open Scope list_scope.

(** ** The clock of a voice on the grid *)
Definition exact_clock (tpb u : Z) (c : vclock) : Prop := on_line tpb u (k_ticks c) /\ k_steps c * tpb = 24 * k_ticks c.
Lemma line_le tpb u a b : 1 <= tpb -> grid tpb u -> on_line tpb u a -> by_line tpb u b -> a <= b ->
  exists q, 0 <= q /\ (24 * (b - a) + tpb - 1) / tpb = q /\ (exists j, q = j * u) /\ 24 * b <= 24 * a + q * tpb < 24 * b + tpb.
Proof.
  intros Ht (Hu & _) (i & Hi) (j & Hj) Hab. exists ((j - i) * u).
  assert (E : (j - i) * u * tpb = j * (u * tpb) - i * (u * tpb)) by ring.
  assert (0 <= (j - i) * u) by nia.
  split; [assumption|]. split; [|split; [now exists (j - i)|lia]].
  symmetry. apply Z.div_unique with (r := 24 * (b - a) + tpb - 1 - (j - i) * u * tpb); lia.
Qed.
Lemma whole_steps tpb u j : grid tpb u -> 24 * (j * u * tpb / 24) = j * u * tpb.
Proof.
  intros (_ & Hg). replace (j * u * tpb) with (j * (u * tpb)) by ring.
  apply Z.div_exact in Hg; [|lia]. rewrite Hg. replace (j * (24 * (u * tpb / 24))) with (j * (u * tpb / 24) * 24) by ring.
  rewrite Z.div_mul by lia. ring.
Qed.
Lemma on_by tpb u t : 1 <= tpb -> on_line tpb u t -> by_line tpb u t.
Proof. intros H (j & Hj). exists j. lia. Qed.
Lemma wait_exact tpb u c t : 1 <= tpb -> grid tpb u -> exact_clock tpb u c -> on_line tpb u t -> k_ticks c <= t -> 24 * (t - k_ticks c) <= 32512 * tpb ->
  exact_clock tpb u (wait tpb c t) /\ k_ticks (wait tpb c t) = t /\ k_start (wait tpb c t) = k_start c.
Proof.
  intros Ht Hg (H1 & H2) Hon Hle Hgap. unfold wait. destruct (k_ticks c <? t) eqn:E.
  2:{ assert (k_ticks c = t) by lia. split; [split; assumption|]. split; [assumption|reflexivity]. }
  destruct H1 as (i & Hi). destruct Hon as (j & Hj). set (q := 24 * (t - k_ticks c) / tpb).
  assert (Eq : q = (j - i) * u).
  { unfold q. replace (24 * (t - k_ticks c)) with ((j - i) * u * tpb) by (rewrite Z.mul_sub_distr_l, Hi, Hj; ring). apply Z.div_mul. lia. }
  assert (Em : q * tpb = 24 * (t - k_ticks c)) by (rewrite Eq, Z.mul_sub_distr_l, Hi, Hj; ring).
  assert (Ed : q * tpb / 24 = t - k_ticks c) by (rewrite Em, Z.mul_comm, Z.div_mul; lia).
  cbn [k_ticks k_steps k_start]. assert (0 <= q <= 32512) by nia. rewrite Ed, shown_small by assumption.
  replace (k_ticks c + (t - k_ticks c)) with t by ring.
  split; [split; [exists j; cbn [k_ticks]; lia|cbn [k_steps k_ticks]; lia]|split; reflexivity].
Qed.
Lemma line_after tpb u a b : 1 <= tpb -> grid tpb u -> on_line tpb u a -> on_line tpb u b -> 24 * a < 24 * b + tpb -> a <= b.
Proof.
  intros Ht (Hu & _) (i & Hi) (j & Hj) H. assert (Hw : tpb <= u * tpb) by nia. set (w := u * tpb) in *.
  destruct (Z_le_gt_dec i j) as [Hij|Hij].
  - assert (i * w <= j * w) by (apply Z.mul_le_mono_nonneg_r; lia). lia.
  - assert ((j + 1) * w <= i * w) by (apply Z.mul_le_mono_nonneg_r; lia). lia.
Qed.
(** [prev] is the time of the last event that moved the clock. The clock is on the first line from there. *)
Lemma grid_placed tpb u mt : 1 <= tpb -> grid tpb u -> forall events prev fin open vel c,
  exact_clock tpb u c -> prev <= k_ticks c -> 24 * k_ticks c < 24 * prev + tpb ->
  k_start c = option_map fst open -> (forall o, open = Some o -> k_ticks c = fst o /\ prev = fst o) ->
  voice_from tpb mt prev fin open events -> Forall (voice_on_grid tpb u) events ->
  exists l e, placed tpb c events = Some (l, e) /\ Forall2 (fun x n => x * tpb = 24 * n_on n) l (notes_from (option_map (fun o => (fst o, vel)) open) events) /\
    (on_line tpb u mt -> k_steps (wait tpb e mt) * tpb = 24 * mt).
Proof.
  intros Ht Hg. induction events as [|[m t] r IH]; intros prev fin open vel c HC Hp1 Hp2 Hs Ho HO HG.
  - exists [], c. split; [reflexivity|]. split; [constructor|]. intros Hm. cbn [voice_from] in HO. destruct HO as ((O1 & O2 & _) & _).
    assert (Hle : k_ticks c <= mt).
    { apply (line_after tpb u); [exact Ht|exact Hg|apply HC|exact Hm|lia]. }
    destruct (wait_exact tpb u c mt Ht Hg HC Hm Hle ltac:(lia)) as ((_ & W) & W2 & _). rewrite W, W2. reflexivity.
  - inversion HG as [|? ? Hx HG']; subst.
    assert (Hafter : forall t', on_line tpb u t' -> prev <= t' -> k_ticks c <= t').
    { intros t' Hl Hle. apply (line_after tpb u); [exact Ht|exact Hg|apply HC|exact Hl|lia]. }
    cbn [voice_from] in HO. destruct HO as (_ & _ & HO).
    assert (Hskip : voice_from tpb mt prev fin open r -> exists l e, placed tpb c r = Some (l, e) /\
      Forall2 (fun x n => x * tpb = 24 * n_on n) l (notes_from (option_map (fun o => (fst o, vel)) open) r) /\
      (on_line tpb u mt -> k_steps (wait tpb e mt) * tpb = 24 * mt)) by (intros HO'; eapply IH; eassumption).
    destruct m as [dt ev data|dt ev|dt ev data|]; try (cbn [placed notes_from] in *; now apply Hskip).
    destruct ev as [ch k v|ch k v|ch k v|ch ctl d|ch p|ch p|ch d|ch]; try (cbn [placed notes_from] in *; now apply Hskip);
      unfold voice_on_grid in Hx; cbn [fst snd] in Hx; cbn [placed notes_from].
    + (* note off *)
      rewrite Hs. destruct open as [[o k']|].
      * destruct HO as (_ & _ & (O1 & O2 & _) & HO). destruct (Ho _ eq_refl) as (Ek & Ep). cbn [fst option_map] in *. subst prev.
        destruct HC as (C1 & C2). rewrite Ek in *. replace (t <? o) with false by lia.
        destruct (line_le tpb u o t Ht Hg C1 Hx O1) as (q & Q0 & Q1 & (j & Qj) & Q2). rewrite Q1.
        assert (Hq : q <= 32512) by nia. rewrite shown_small by lia.
        assert (E24 : 24 * (q * tpb / 24) = q * tpb) by (rewrite Qj; now apply (whole_steps tpb u)).
        destruct (IH t (Some t) None vel (mk_vclock (o + q * tpb / 24) (k_steps c + q) None)) as (l & e & IH1 & IH2 & IH3).
        -- split; cbn [k_ticks k_steps]; [|lia]. destruct C1 as (i & Hi). exists (i + j). rewrite Z.mul_add_distr_l, E24, Hi, Qj. ring.
        -- cbn [k_ticks]. lia.
        -- cbn [k_ticks]. lia.
        -- reflexivity.
        -- intros ? [=].
        -- exact HO.
        -- exact HG'.
        -- rewrite IH1. exists (k_steps c :: l), e. split; [reflexivity|]. split; [|exact IH3]. constructor; [cbn [n_on]; lia|exact IH2].
      * cbn [option_map]. eapply (IH prev fin None vel); eassumption.
    + (* note on *)
      destruct HO as (-> & (O1 & O2 & _) & HO). rewrite Hs. cbn [option_map]. pose proof (Hafter t Hx O1) as Hle.
      destruct (wait_exact tpb u c t Ht Hg HC Hx Hle ltac:(lia)) as ((W1 & W2) & W3 & W4).
      apply (IH t fin (Some (t, k)) v).
      * split; assumption.
      * cbn [k_ticks]. lia.
      * cbn [k_ticks]. lia.
      * cbn [k_start]. now rewrite W3.
      * intros ? [= <-]. cbn [k_ticks fst]. split; [exact W3|reflexivity].
      * exact HO.
      * exact HG'.
    + (* program *)
      destruct HO as (-> & (O1 & O2 & _) & HO). pose proof (Hafter t Hx O1) as Hle.
      destruct (wait_exact tpb u c t Ht Hg HC Hx Hle ltac:(lia)) as ((W1 & W2) & W3 & W4). cbn [option_map].
      apply (IH t fin None vel).
      * split; assumption.
      * lia.
      * lia.
      * cbn [option_map] in *. congruence.
      * intros ? [=].
      * exact HO.
      * exact HG'.
Qed.

(** ** One voice *)
(** Events in the first 349525 ticks (less a step). *)
Definition soon (tpb : Z) (t : Z) : Prop := 24 * (t + 1) + tpb < 2 ^ 23.
Lemma voice_calm tpb mt : soon tpb mt -> forall events prev fin open, 0 <= prev -> Forall (fun x => soon tpb (snd x)) events ->
  (forall o, open = Some o -> 0 <= fst o) ->
  voice_from tpb mt prev fin open events -> SpecPlaced.calm tpb prev (option_map fst open) events mt /\
    Forall (fun e => midi_valid (fst e) /\ 0 <= snd e < 2 ^ 31) events /\ mt < 2 ^ 31.
Proof.
  unfold soon. intros Hm. induction events as [|[m t] r IH]; intros prev fin open Hp HS Ho HV.
  - cbn [SpecPlaced.calm voice_from] in *. unfold calm_gap. split; [lia|]. split; [constructor|lia].
  - inversion HS as [|? ? Hs HS']; subst. cbn [fst snd] in *. cbn [voice_from] in HV. destruct HV as (Hv & Ht & HV).
    assert (Hcons : forall prev' fin' open', 0 <= prev' -> (forall o, open' = Some o -> 0 <= fst o) -> voice_from tpb mt prev' fin' open' r ->
      SpecPlaced.calm tpb prev' (option_map fst open') r mt /\ Forall (fun e => midi_valid (fst e) /\ 0 <= snd e < 2 ^ 31) ((m, t) :: r) /\ mt < 2 ^ 31).
    { intros prev' fin' open' H1 H2 H3. destruct (IH prev' fin' open' H1 HS' H2 H3) as (A & B & C). split; [exact A|]. split; [|exact C].
      constructor; [|exact B]. cbn [fst snd]. split; [exact Hv|exact Ht]. }
    destruct m as [dt ev data|dt ev|dt ev data|]; try (cbn [SpecPlaced.calm]; now apply (Hcons prev fin open)).
    destruct ev as [ch k v|ch k v|ch k v|ch ctl d|ch p|ch p|ch d|ch]; try (cbn [SpecPlaced.calm]; now apply (Hcons prev fin open)); cbn [SpecPlaced.calm].
    + destruct open as [[o k']|]; cbn [option_map].
      * destruct HV as (_ & _ & _ & HV). specialize (Ho _ eq_refl). cbn [fst] in *.
        destruct (Hcons t (Some t) None) as (A & B); [lia|intros ? [=]|exact HV|]. split; [|exact B]. split; [unfold calm_gap; lia|exact A].
      * now apply (Hcons prev fin None).
    + destruct HV as (-> & _ & HV). destruct (Hcons t fin (Some (t, k))) as (A & B); [lia|intros ? [= <-]; cbn [fst]; lia|exact HV|].
      split; [|exact B]. split; [unfold calm_gap; lia|exact A].
    + destruct HV as (-> & _ & HV). destruct (Hcons t fin None) as (A & B); [lia|intros ? [=]|exact HV|].
      split; [|exact B]. split; [unfold calm_gap; lia|exact A].
Qed.
Theorem voice_exact b tpb u tf events mt tr : 1 <= tpb <= 65535 -> grid tpb u -> voice_ok tpb mt events ->
  Forall (voice_on_grid tpb u) events -> Forall (fun x => soon tpb (snd x)) events -> soon tpb mt ->
  track_new b events tpb mt tf = Ok tr ->
  Forall2 (fun h n => h_onset h * tpb = 24 * n_on n) (heads tr) (notes_of events) /\
  (on_line tpb u mt -> tr <> [] -> total_steps tr * tpb = 24 * mt).
Proof.
  intros Hg Hu HV HG HS Hm H.
  destruct (voice_calm tpb mt Hm events 0 None None ltac:(lia) HS ltac:(intros ? [=]) HV) as (HC & Hval & Hmt).
  assert (Hc0 : exact_clock tpb u vclock0) by (split; [exists 0; reflexivity|reflexivity]).
  destruct (grid_placed tpb u mt ltac:(lia) Hu events 0 None None 0 vclock0 Hc0) as (l & e & Hp & HF & HE); try assumption; try reflexivity.
  - cbn [vclock0 k_ticks]. lia.
  - intros ? [=].
  - pose proof (track_placed b tpb tf events mt Hg Hmt Hval HC) as HP. rewrite Hp in HP. destruct HP as (tr' & H' & Hh & Hend).
    rewrite H in H'. injection H' as <-. split.
    + apply Forall2_map_left with (f := h_onset) (P := fun x n => x * tpb = 24 * n_on n). rewrite Hh. exact HF.
    + intros Hl Hne. rewrite (Hend Hne). now apply HE.
Qed.

(** ** The voices of a file on the grid *)
Definition grid_inv (tpb u : Z) (p : list tmsg) (s : vstate) : Prop :=
  Forall (on_grid tpb u) p -> forall v x, In x (vv s v) -> voice_on_grid tpb u x.
Lemma line_grid tpb u m t : 1 <= tpb -> on_line tpb u t -> voice_on_grid tpb u (m, t).
Proof.
  intros Ht H. unfold voice_on_grid. cbn [fst snd]. destruct m as [|? []| |]; try exact I; try exact H. now apply on_by.
Qed.
Lemma prelude_time s c k d t voice x : In x (prelude s c k d t voice) -> snd x = t.
Proof.
  intros Hin. unfold prelude in Hin. apply in_app_or in Hin. destruct Hin as [Hin|Hin].
  - destruct (match nth voice (v_chan s) None with Some c' => Z.of_nat c' =? c | None => false end); [destruct Hin|].
    apply in_app_or in Hin. destruct Hin as [Hin|Hin]; [|apply in_app_or in Hin; destruct Hin as [Hin|Hin]];
      apply in_opt_msg in Hin; destruct Hin as (m & _ & ->); reflexivity.
  - destruct (_ && _); [|destruct Hin]. destruct Hin as [<-|[]]. reflexivity.
Qed.
Lemma grid_run base tpb u p s : 1 <= tpb -> base_ok base -> Forall typed p -> ofold (vstep base) p (vstate0 base) = Ok s -> grid_inv tpb u p s.
Proof.
  intros Ht Hb. apply (run_ind base (grid_inv tpb u) Hb).
  - intros _ v x Hx. unfold vv, vstate0 in Hx. cbn [v_voices] in Hx. rewrite nth_repeat in Hx. destruct Hx.
  - clear p s. intros p m t s s1 IH _ _ _ _ (px & Hpx & Hstep) Hval v x Hx.
    apply Forall_app in Hval. destruct Hval as [Hval Hm]. inversion Hm as [|? ? Hm' _]; subst.
    rewrite Hpx in Hx. apply in_app_or in Hx. destruct Hx as [Hx|Hx]; [exact (IH Hval v x Hx)|]. clear IH Hval Hm Hpx.
    destruct m as [? [] ?|d [c k vel|c k vel|c k vel|c ctl dat|c pr|c pr|c dat|c]|? ? ?|].
    all: try (destruct Hstep as (_ & _ & _ & Hp & _); destruct (Hp v) as [Hp'|Hp']; rewrite Hp' in Hx; [destruct Hx|destruct Hx as [<-|[]]; exact Hm']; fail).
    + destruct Hstep as (Hp & _). rewrite Hp in Hx. apply in_on_voice in Hx. subst x. exact Hm'.
    + destruct Hstep as (_ & _ & Hstep). unfold on_grid in Hm'. cbn [fst snd] in Hm'. destruct (0 <? vel).
      * destruct Hstep as (voice & _ & Hp & _). rewrite Hp in Hx. apply in_app_or in Hx. destruct Hx as [Hx|Hx].
        { apply in_on_voice in Hx. subst x. now apply line_grid. }
        destruct (Nat.eqb v voice); [|destruct Hx]. apply in_app_or in Hx. destruct Hx as [Hx|[<-|[]]]; [|now apply line_grid].
        apply prelude_time in Hx. destruct x as [xm xt]. cbn [snd] in Hx. subst xt. now apply line_grid.
      * destruct Hstep as (Hp & _). rewrite Hp in Hx. apply in_on_voice in Hx. subst x. exact Hm'.
    + destruct Hstep as (_ & _ & _ & Hp & _). rewrite Hp in Hx. match type of Hx with In _ (if ?b then _ else _) => destruct b end; [destruct Hx as [<-|[]]; exact I|destruct Hx].
    + destruct Hstep as (_ & _ & _ & Hp & _). rewrite Hp in Hx. match type of Hx with In _ (if ?b then _ else _) => destruct b end; [destruct Hx as [<-|[]]; exact Hm'|destruct Hx].
    + destruct Hstep as (_ & _ & _ & Hp & _). rewrite Hp in Hx. match type of Hx with In _ (if ?b then _ else _) => destruct b end; [destruct Hx as [<-|[]]; exact I|destruct Hx].
Qed.

(** ** From the file to what the driver plays *)
Lemma exact_attacks b events tpb mt tf tr prev u : 1 <= tpb <= 65535 -> voice_ok tpb mt events ->
  grid tpb u -> Forall (voice_on_grid tpb u) events -> Forall (fun x => soon tpb (snd x)) events -> soon tpb mt ->
  track_new b events tpb mt tf = Ok tr -> slid_to prev = None ->
  Forall2 (fun x n => fst x * tpb = 24 * n_on n /\ snd x = driver_pitch (n_key n)) (attacks_from 0 prev (prescribed tr None None)) (notes_of events).
Proof.
  intros Hg HV Hu HG HS Hm H Hp. pose proof (converted_attacks b events tpb mt tf tr prev Hg HV H Hp) as HA.
  destruct (voice_exact b tpb u tf events mt tr Hg Hu HV HG HS Hm H) as (HE & _).
  destruct (track_converts b tpb tf events mt Hg HV) as (tr' & H' & HF & _ & Hd). rewrite H in H'. injection H' as <-.
  destruct (heads_attacks tr walk0 prev None None) as (new & H1 & H2 & H3).
  - eapply Forall_impl; [|exact Hd]. exact dur_ok_lasting.
  - exact (track_vel _ _ _ _ _ _ H).
  - exact Hp.
  - change (w_now walk0) with 0 in H2. rewrite H2 in *. unfold heads in HE. rewrite H1 in HE. cbn [walk0 w_heads app] in HE.
    clear - HA HE. revert HA. induction HE as [|h n lh ln R _ IH]; intros HA; cbn [map] in *; [constructor|].
    inversion HA as [|? ? ? ? (_ & A1) HA']; subst. constructor; [|now apply IH]. cbn [fst snd] in *. split; [exact R|exact A1].
Qed.
Lemma exact_song b voices tpb mt n tf opt s trs mem a lp at_ u :
  song_from_midi b voices tpb mt tf opt = Ok s -> (length voices <= 8)%nat -> 1 <= tpb <= 65535 -> voices_ok tpb mt n voices ->
  grid tpb u -> Forall (fun v => Forall (voice_on_grid tpb u) v /\ Forall (fun x => soon tpb (snd x)) v) voices -> soon tpb mt ->
  voice_tracks b voices tpb mt tf trs -> Forall seven_bit trs -> (opt = true -> keeps_music trs (tracks s)) ->
  song_in mem a lp s at_ -> mem 0 = None ->
  exists ess, song_plays mem a ess /\
    Forall2 (fun x v => fst x * tpb = 24 * n_on v /\ snd x = driver_pitch (n_key v)) (flat_map attacks ess) (flat_map notes_of voices) /\
    (on_line tpb u mt -> forall es, In es ess -> es <> [] -> played_steps es * tpb = 24 * mt).
Proof.
  intros H Hv8 Hg HV Hu HG Hm Htr Hsh Hopt Hin H0. rewrite Forall_forall in HG.
  assert (HA : exists ess, song_plays mem a ess /\ Forall2 (fun x v => fst x * tpb = 24 * n_on v /\ snd x = driver_pitch (n_key v)) (flat_map attacks ess) (flat_map notes_of voices)).
  { eapply song_each; try eassumption; [reflexivity|]. intros v t Hi Hok Hn Ht. destruct (HG v Hi) as (G1 & G2).
    assert (HC : forall prev, slid_to prev = None -> Forall2 (fun x v => fst x * tpb = 24 * n_on v /\ snd x = driver_pitch (n_key v))
      (attacks_from 0 prev (prescribed t None None)) (notes_of v)) by (intros; eapply exact_attacks; eassumption). split.
    - intros ->. specialize (HC None eq_refl). cbn [prescribed attacks_from] in HC. now inversion HC.
    - intros _ m i pre es Hm' Hi' Hf E. destruct (frame_attacks s m i pre es Hm' Hi' Hf) as (prev & Hp & ->).
      rewrite (attacks_heard _ _ _ _ E). now apply HC. }
  assert (HB : exists ess, song_plays mem a ess /\ (on_line tpb u mt -> forall es, In es ess -> es <> [] -> played_steps es * tpb = 24 * mt)).
  { destruct (song_each steps_of (fun v => match track_new b v tpb mt tf with Ok (_ :: _) => [tt] | _ => [] end)
      (fun x _ => on_line tpb u mt -> x * tpb = 24 * mt) b voices tpb mt n tf opt s trs mem a lp at_) as (ess & Hp & HF); try assumption; [reflexivity| |].
    - intros v t Hi Hok Hn Ht. destruct (HG v Hi) as (G1 & G2). rewrite Ht. split; [now intros ->|]. intros Ht0 m i pre es Hm' Hi' Hf E.
      destruct t as [|c t]; [congruence|]. clear Ht0.
      assert (Hne : exists e es', control_events pre ++ es = e :: es').
      { destruct es as [|e es]; [discriminate|]. destruct (control_events pre); cbn [app]; eauto. }
      destruct Hne as (e & es' & Ee). unfold steps_of. rewrite Ee, <- Ee. constructor; [|constructor]. intros Hl.
      unfold played_steps. rewrite map_app, zsum_app, control_steps, (event_steps_heard _ _ E).
      rewrite (prescribed_steps (c :: t)) by (eapply converted_lasting; eassumption).
      destruct (voice_exact b tpb u tf v mt (c :: t) Hg Hu Hok G1 G2 Hm Ht) as (_ & HC). specialize (HC Hl ltac:(discriminate)). exact HC.
    - exists ess. split; [exact Hp|]. intros Hl es He Hne.
      assert (Hin' : In (played_steps es) (flat_map steps_of ess)).
      { apply in_flat_map. exists es. split; [exact He|]. destruct es; [congruence|now left]. }
      clear - HF Hin' Hl. induction HF as [|x y l l' Hx _ IH]; [contradiction|]. destruct Hin' as [<-|Hi]; auto. }
  destruct HA as (ess & A1 & A2). destruct HB as (ess' & B1 & B2). exists ess. split; [exact A1|]. split; [exact A2|].
  rewrite (song_plays_det _ _ _ _ A1 B1). exact B2.
Qed.
Theorem file_exact b w order opt p tf s s0 cbs mem a lp at_ u :
  midi_file w p = (cbs, true) -> Forall callback_typed cbs -> (forall k, permutes (order k)) ->
  renderable (beat_ticks cbs) (tracks_of cbs) -> gridded (beat_ticks cbs) u (tracks_of cbs) ->
  song_from_midi_file b w order opt p tf = Ok s -> song_from_midi_file b w order false p tf = Ok s0 ->
  Forall seven_bit (tracks s0) -> (opt = true -> keeps_music (tracks s0) (tracks s)) ->
  song_in mem a lp s at_ -> mem 0 = None ->
  exists notes ns ess end_, file_notes (tracks_of cbs) notes /\ Permutation ns (filter ended (map drum notes)) /\ song_plays mem a ess /\
    Forall2 (fun x n => fst x * beat_ticks cbs = 24 * nt_on n /\ snd x = driver_pitch (nt_key n)) (flat_map attacks ess) ns /\
    file_end (tracks_of cbs) end_ /\
    (on_line (beat_ticks cbs) u end_ -> forall es, In es ess -> es <> [] -> played_steps es * beat_ticks cbs = 24 * end_).
Proof.
  intros Ew Hty Ho Hrf [Hu Hev Htk] Hs Hs0 Hsb Hopt Hin H0. unfold song_from_midi_file in Hs, Hs0. rewrite Ew in Hs, Hs0.
  inv_bind Hs0. rename a0 into h. rename Ha into Hh. rewrite Hh in Hs. cbn [bind] in Hs.
  unfold song_from_midi in Hs0. inv_bind Hs0. cbv zeta in Hs0. injection Hs0 as <-. cbn [tracks] in *. rename a0 into trs.
  apply convert_voices_spec in Ha. rename Ha into Htr.
  destruct (file_voices b cbs order h Hty Ho Hh Hrf) as (Etpb & Hv8 & Hvok & notes & ns & Hfn & Hperm & Hsame).
  destruct (file_reading b cbs order h Hty Ho Hh Hrf) as (chs & base & m & st & Hrd & _ & mx & ivs & Hiv & Hmx & _). rewrite Etpb in *.
  assert (Hend : file_end (tracks_of cbs) (h_max_time h)) by (rewrite Hmx; exact (reading_end b _ _ _ _ _ _ _ _ Hrd (rf_ok _ _ Hrf) Hiv)).
  pose proof (rf_beat _ _ Hrf) as Hg.
  assert (Hsoon : soon (beat_ticks cbs) (h_max_time h)).
  { destruct Hend as (_ & [He|(_ & ->)]); [|unfold soon; lia]. unfold channel_times in He. apply in_map_iff in He. destruct He as (x & <- & Hx).
    apply filter_In in Hx. apply Htk, Hx. }
  assert (Hmf : forall x, In x m -> In x (flat_map (timed 0) (tracks_of cbs))).
  { intros x Hx. apply (Permutation_in x (interleave_perm _ _ (rd_merge _ _ _ _ _ _ Hrd))) in Hx. apply in_concat in Hx.
    destruct Hx as (ch & Hch & Hx). apply In_nth with (d := []) in Hch. destruct Hch as (c & _ & <-).
    destruct (rd_sorts _ _ _ _ _ _ Hrd c) as [Hp _]. apply (Permutation_in x (Permutation_sym Hp)) in Hx. apply filter_In in Hx. apply Hx. }
  assert (HG : Forall (fun v => Forall (voice_on_grid (beat_ticks cbs) u) v /\ Forall (fun x => soon (beat_ticks cbs) (snd x)) v) (h_voices h)).
  { rewrite Forall_forall in Hev. apply Forall_forall. intros v Hi. rewrite <- (rd_voices _ _ _ _ _ _ Hrd) in Hi. apply In_nth with (d := []) in Hi. destruct Hi as (j & _ & <-).
    change (nth j (v_voices st) []) with (vv st j). split; apply Forall_forall; intros x Hx.
    - eapply (grid_run base (beat_ticks cbs) u m st); [lia|apply Hrd|apply Hrd|apply Hrd| |exact Hx]. apply Forall_forall. auto.
    - assert (Hval : Forall (fun x => midi_valid (fst x)) m).
      { apply Forall_forall. intros y Hy. apply (timed_valid (tracks_of cbs)); [apply (rf_valid _ _ Hrf)|auto]. }
      assert (Hk : kept m st) by (eapply kept_run; apply Hrd).
      destruct (Hk Hval) as (Hmsgs & _). destruct (Hmsgs j x Hx) as (_ & y & Hy & <- & _). apply Htk. auto. }
  assert (Hv8' : (length (h_voices h) <= 8)%nat) by (rewrite Hv8; constructor).
  destruct (exact_song b _ _ _ _ _ _ _ _ _ _ _ _ u Hs Hv8' Hg Hvok Hu HG Hsoon Htr Hsb Hopt Hin H0) as (ess & Hess & Hheard & HE).
  exists notes, ns, ess, (h_max_time h). split; [exact Hfn|]. split; [exact Hperm|]. split; [exact Hess|]. split; [|split; [exact Hend|exact HE]].
  clear -Hsame Hheard. revert ns Hsame. induction Hheard as [|x v l1 l2 Hx _ IH]; intros ns Hsame; inversion Hsame as [|? n ? ns' (E1 & E2 & E3 & E4) Hs']; subst; constructor; auto.
  rewrite <- E1, <- E3. exact Hx.
Qed.

(** ** A checker *)
Definition on_line_b (tpb u t : Z) : bool := (24 * t) mod (u * tpb) =? 0.
Definition by_line_b (tpb u t : Z) : bool := (24 * t + u * tpb - 1) / (u * tpb) * (u * tpb) <? 24 * t + tpb.
Lemma on_line_b_ok tpb u t : 0 < u * tpb -> on_line_b tpb u t = true -> on_line tpb u t.
Proof.
  unfold on_line_b, on_line. intros Hw H. exists (24 * t / (u * tpb)). pose proof (Z.div_mod (24 * t) (u * tpb) ltac:(lia)). lia.
Qed.
Lemma by_line_b_ok tpb u t : 0 < u * tpb -> by_line_b tpb u t = true -> by_line tpb u t.
Proof.
  unfold by_line_b, by_line. intros Hw H. exists ((24 * t + u * tpb - 1) / (u * tpb)). set (w := u * tpb) in *.
  pose proof (Z.div_mod (24 * t + w - 1) w ltac:(lia)). pose proof (Z.mod_pos_bound (24 * t + w - 1) w Hw). lia.
Qed.
Definition on_grid_b (tpb u : Z) (x : tmsg) : bool :=
  match fst x with
  | MidiEvent _ (NoteOn _ _ v) => if 0 <? v then on_line_b tpb u (snd x) else by_line_b tpb u (snd x)
  | MidiEvent _ (NoteOff _ _ _) => by_line_b tpb u (snd x)
  | MidiEvent _ (ProgramChange _ _) => on_line_b tpb u (snd x)
  | _ => true
  end.
Definition gridded_b (tpb u : Z) (ts : list (list message)) : bool :=
  (0 <? u) && (0 <? tpb) && ((u * tpb) mod 24 =? 0) && forallb (fun x => on_grid_b tpb u x && (24 * (snd x + 1) + tpb <? 2 ^ 23)) (flat_map (timed 0) ts).
Lemma gridded_b_ok tpb u ts : gridded_b tpb u ts = true -> gridded tpb u ts.
Proof.
  unfold gridded_b. rewrite !andb_true_iff. intros [[[H1 H2] H3] H4]. rewrite forallb_forall in H4.
  assert (Hw : 0 < u * tpb) by (apply Z.mul_pos_pos; lia). constructor.
  - split; [lia|]. apply Z.eqb_eq, H3.
  - apply Forall_forall. intros x Hx. specialize (H4 x Hx). apply andb_true_iff in H4. destruct H4 as [H4 _]. unfold on_grid_b in H4. unfold on_grid.
    revert H4. destruct (fst x) as [|? [| c k v | | | | | |]| |]; intros H4; try exact I; auto using on_line_b_ok, by_line_b_ok. destruct (0 <? v); auto using on_line_b_ok, by_line_b_ok.
  - intros x Hx. specialize (H4 x Hx). apply andb_true_iff in H4. lia.
Qed.
