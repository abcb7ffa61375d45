(** ReportProofs.v: lemmas for C80. *)
From Coq Require Import Arith Sorted.
From Verif Require Import Base ProofLib F32 Messages Command Track SeqTree Song Paths Manifest Rom SpecRom Report SpecReport.
Open Scope Z_scope.

(** ** The result is that of Rom.v *)
Lemma snd_sbind {A B} (m : shown A) (f : A -> shown B) : snd (sbind m f) = bind (snd m) (fun a => snd (f a)).
Proof. unfold sbind. destruct (snd m); reflexivity. Qed.
Lemma bind_same {A B} (o : outcome A) (f g : A -> outcome B) : (forall a, f a = g a) -> bind o f = bind o g.
Proof. intros H. destruct o; cbn [bind]; auto. Qed.
Lemma bind_tt {B} (f : outcome B) : bind (Ok tt) (fun _ => f) = f. Proof. reflexivity. Qed.
Lemma sfold_snd {A S} (f : S -> A -> shown S) (g : S -> A -> outcome S) : (forall s a, snd (f s a) = g s a) ->
  forall l s, snd (sfold f l s) = ofold g l s.
Proof. intros H. induction l as [|a l IH]; intros s; cbn [sfold ofold]; [reflexivity|]. rewrite snd_sbind, H. apply bind_same. intros s'. apply IH. Qed.
Lemma say_snd v m : snd (say v m) = Ok tt. Proof. reflexivity. Qed.
Lemma silent_snd {A} (o : outcome A) : snd (silent o) = o. Proof. reflexivity. Qed.
Lemma switch_snd b v x y : snd (say_switch b v x y) = verbose_sub b v x y.
Proof. unfold say_switch, verbose_sub. destruct v; [|reflexivity]. rewrite snd_sbind. reflexivity. Qed.
Lemma bind_assoc_tt {A B} (o : outcome A) (f : A -> outcome B) : bind o (fun a => bind (Ok tt) (fun _ => f a)) = bind o f.
Proof. destruct o; reflexivity. Qed.
Lemma reserve_snd b v bl lp st : snd (show_reserve b v bl lp st) = reserve_header b v bl lp st.
Proof.
  unfold show_reserve, reserve_header. destruct (_ <? _); [|reflexivity]. destruct (_ =? _); [reflexivity|]. rewrite snd_sbind, switch_snd. reflexivity.
Qed.
Lemma bind_both {A B} (o o' : outcome A) (f g : A -> outcome B) : o = o' -> (forall a, f a = g a) -> bind o f = bind o' g.
Proof. intros -> H. apply bind_same. exact H. Qed.
Lemma track_snd b v bl so s st i : snd (show_track b v bl so s st i) = write_one_track b v bl so s st i.
Proof.
  unfold show_track, write_one_track. cbv zeta. rewrite snd_sbind, silent_snd. apply bind_same. intros [data refs].
  rewrite snd_sbind. apply bind_both.
  - destruct (_ <? _); [|reflexivity]. destruct (_ =? _); [reflexivity|]. rewrite snd_sbind, switch_snd. reflexivity.
  - intros [[st1 pre] cur]. rewrite snd_sbind, say_snd, bind_tt. destruct (0 <? _); [|reflexivity]. rewrite snd_sbind. reflexivity.
Qed.
Lemma part_snd v addrs part : forall r a, snd (show_part v r a addrs part) = write_part r a addrs part.
Proof.
  induction part as [|ti part IH]; intros r a; cbn [show_part write_part]; [reflexivity|]. rewrite snd_sbind, silent_snd. apply bind_same. intros ta.
  rewrite snd_sbind, say_snd, bind_tt. destruct (addr_to_bytes ta) as [h l]. rewrite snd_sbind, silent_snd. apply bind_same. intros r'. apply IH.
Qed.
Lemma patch_snd v addrs r x : snd (show_patch v addrs r x) = patch_loop addrs r x.
Proof.
  unfold show_patch, patch_loop. cbv zeta. rewrite snd_sbind, silent_snd. apply bind_same. intros ta. rewrite snd_sbind, say_snd, bind_tt. destruct (addr_to_bytes ta). reflexivity.
Qed.
Lemma song_snd b v bl st lp s : snd (show_song b v bl st lp s) = write_song b v bl st lp s.
Proof.
  unfold show_song, write_song. cbv zeta. rewrite snd_sbind, reserve_snd. apply bind_same. intros st1. rewrite snd_sbind, say_snd, bind_tt.
  rewrite snd_sbind, silent_snd. apply bind_same. intros r1. rewrite snd_sbind. apply bind_both; [apply sfold_snd; intros; apply track_snd|]. intros ks.
  rewrite snd_sbind, say_snd, bind_tt, snd_sbind, silent_snd. apply bind_same. intros r2. rewrite snd_sbind, silent_snd. apply bind_same. intros part.
  rewrite snd_sbind, part_snd. apply bind_same. intros r3. rewrite snd_sbind. apply bind_both; [apply sfold_snd; intros; apply patch_snd|]. intros r4.
  rewrite snd_sbind, say_snd, bind_tt. reflexivity.
Qed.
Lemma bind_ok {A} (o : outcome A) : bind o Ok = o. Proof. destruct o; reflexivity. Qed.
Lemma song_def_snd b v bar bl conv st sd : snd (show_song_def b v bar bl conv st sd) = write_song_def b v bl conv st sd.
Proof.
  unfold show_song_def, write_song_def. rewrite snd_sbind, silent_snd. apply bind_same. intros _. rewrite snd_sbind. cbn [show snd]. rewrite bind_tt.
  rewrite snd_sbind, silent_snd. apply bind_same. intros s. rewrite snd_sbind, song_snd.
  transitivity (bind (write_song b v bl st (loops sd) s) Ok); [|apply bind_ok]. apply bind_same. intros st'. rewrite snd_sbind. reflexivity.
Qed.
Lemma bank_snd b v bar bk r ba fa first conv : snd (show_bank b v bar bk r ba fa first conv) = write_bank b v bk r ba fa first conv.
Proof.
  unfold show_bank, write_bank. rewrite snd_sbind, silent_snd. apply bind_same. intros bl. rewrite snd_sbind, say_snd, bind_tt, snd_sbind. cbn [show snd].
  rewrite bind_tt, snd_sbind. apply bind_both; [apply sfold_snd; intros; apply song_def_snd|]. reflexivity.
Qed.
Lemma banks_snd b v addrs conv bks : forall i first r, snd (show_banks b v bks i first r addrs conv) = write_banks b v bks i first r addrs conv.
Proof.
  induction bks as [|bk bks IH]; intros i first r; cbn [show_banks write_banks]; [reflexivity|]. rewrite snd_sbind, silent_snd. apply bind_same. intros ba.
  rewrite snd_sbind, silent_snd. apply bind_same. intros fa. rewrite snd_sbind, bank_snd. apply bind_same. intros r'. rewrite snd_sbind. cbn [show snd]. rewrite bind_tt. apply IH.
Qed.
Lemma write_snd b v m file op addrs conv os : snd (show_write b v m file op addrs conv os) = fst (rom_write b v m file op addrs conv os).
Proof.
  unfold show_write, rom_write. destruct op; [|reflexivity]. rewrite snd_sbind. cbn [show snd]. rewrite bind_tt, snd_sbind, banks_snd.
  destruct (write_banks _ _ _ _ _ _ _ _); try reflexivity. cbn [bind]. rewrite snd_sbind, silent_snd. destruct os; reflexivity.
Qed.

(** ** The two threads *)
Definition is_fin (m : message) : nat := match m with Finished => 1 | Draw => 0 end.
Definition fins (ms : list message) : nat := list_sum (map is_fin ms).
Lemma fins_app a c : fins (a ++ c) = (fins a + fins c)%nat.
Proof. unfold fins. rewrite map_app, list_sum_app. reflexivity. Qed.
Lemma fins_cons m ms : fins (m :: ms) = (is_fin m + fins ms)%nat. Proof. reflexivity. Qed.
Definition ends_fin (ms : list message) : Prop := ms = [] \/ exists ms', ms = ms' ++ [Finished].
Lemma ends_fin_tail m ms : ends_fin (m :: ms) -> ends_fin ms /\ (1 <= fins (m :: ms))%nat.
Proof.
  intros [E|(ms' & E)]; [discriminate|]. split.
  - destruct ms' as [|m' ms']; injection E as -> ->; [left; reflexivity|right; exists ms'; reflexivity].
  - rewrite E, fins_app. cbn. lia.
Qed.
Definition work (t : threads) : nat := 2 * length (to_send t) + length (channel t) + (if joined t then 0 else 1).
Lemma joins_all n : forall t, (work t < n)%nat -> joined t = false -> fins (channel t ++ to_send t) = bars_left t -> ends_fin (to_send t) -> always_joins t.
Proof.
  induction n as [|n IH]; intros t Hw Hj Hf He; [lia|]. apply joins_later.
  - destruct t as [ms ch k j]. cbn [to_send channel bars_left joined] in *. subst j. rewrite fins_app in Hf. destruct ms as [|m ms].
    + destruct k as [|k]; [eexists; constructor|]. destruct ch as [|[] ch]; [cbn in Hf; lia| |]; eexists; [apply display_draws|apply display_counts].
    + destruct (ends_fin_tail _ _ He) as [_ H1]. destruct k as [|k]; [lia|]. eexists. apply builder_sends.
  - intros t' St. destruct St; unfold work in *; cbn [to_send channel bars_left joined] in *; rewrite ?fins_app, ?fins_cons in *; cbn [is_fin] in *.
    + apply IH; unfold work; cbn [to_send channel bars_left joined]; auto.
      * rewrite app_length. cbn [length] in *. lia.
      * rewrite !fins_app. cbn [fins map list_sum fold_right]. fold (fins ch). lia.
      * apply (ends_fin_tail _ _ He).
    + apply IH; unfold work; cbn [to_send channel bars_left joined]; auto.
      * cbn [length] in *. lia.
      * rewrite fins_app. lia.
    + apply IH; unfold work; cbn [to_send channel bars_left joined]; auto.
      * cbn [length] in *. lia.
      * rewrite fins_app. lia.
    + apply joins_now. reflexivity.
Qed.
Lemma unfinished_blocks t : always_joins t -> joined t = false -> (fins (channel t ++ to_send t) < bars_left t)%nat -> False.
Proof.
  intros H. induction H as [t E|t [t' St] _ IH]; intros Hj Hf; [congruence|]. apply (IH t' St); destruct St; cbn [to_send channel bars_left joined] in *; auto;
    rewrite ?fins_app, ?fins_cons in *; cbn [is_fin fins map list_sum fold_right] in *; try lia.
Qed.
Lemma sends_fins l ms : sends l ms -> fins ms = length (bars_finished l).
Proof.
  assert (R : forall k, fins (repeat Draw k) = 0%nat) by (induction k; auto).
  induction 1; cbn [bars_finished length]; rewrite ?fins_app, ?fins_cons, ?R; cbn [is_fin]; auto; try (cbn; lia).
Qed.
Lemma sends_app l1 : forall l2 ms, sends (l1 ++ l2) ms -> exists m1 m2, ms = m1 ++ m2 /\ sends l1 m1 /\ sends l2 m2.
Proof.
  induction l1 as [|e l1 IH]; intros l2 ms H; [exists [], ms; repeat split; [constructor|exact H]|].
  cbn [app] in H. inversion H; subst; destruct (IH _ _ H3) as (m1 & m2 & -> & S1 & S2).
  all: try (exists m1, m2; split; [reflexivity|]; split; [constructor; exact S1|exact S2]).
  - exists (repeat Draw k ++ m1), m2. split; [apply app_assoc|]. split; [constructor; exact S1|exact S2].
  - exists (repeat Draw k ++ m1), m2. split; [apply app_assoc|]. split; [constructor; exact S1|exact S2].
  - exists (repeat Draw k ++ Finished :: m1), m2. split; [rewrite <- app_assoc; reflexivity|]. split; [constructor; exact S1|exact S2].
Qed.

(** ** What is shown *)
Lemma fst_sbind {A B} (m : shown A) (f : A -> shown B) :
  (exists a, snd m = Ok a /\ fst (sbind m f) = fst m ++ fst (f a) /\ snd (sbind m f) = snd (f a)) \/
  (forall a, snd m <> Ok a) /\ fst (sbind m f) = fst m /\ forall a, snd (sbind m f) <> Ok a.
Proof. unfold sbind. destruct (snd m); [left; eauto|right|right|right]; (split; [congruence|split; [reflexivity|cbn; congruence]]). Qed.
Lemma Forall_sbind {A B} (P : event -> Prop) (m : shown A) (f : A -> shown B) : Forall P (fst m) -> (forall a, snd m = Ok a -> Forall P (fst (f a))) -> Forall P (fst (sbind m f)).
Proof. intros H1 H2. destruct (fst_sbind m f) as [(a & E & -> & _)|(_ & -> & _)]; [apply Forall_app; auto|exact H1]. Qed.
Lemma Forall_sfold {A S} (P : event -> Prop) (f : S -> A -> shown S) : (forall s a, Forall P (fst (f s a))) -> forall l s, Forall P (fst (sfold f l s)).
Proof. intros H. induction l as [|a l IH]; intros s; cbn [sfold]; [constructor|]. apply Forall_sbind; auto. Qed.
Definition is_said (e : event) : Prop := match e with Said _ => True | _ => False end.
Lemma silent_all {A} P (o : outcome A) : Forall P (fst (silent o)). Proof. constructor. Qed.
Lemma say_said v m : Forall is_said (fst (say v m)). Proof. destruct v; repeat constructor. Qed.
Lemma switch_said b v x y : Forall is_said (fst (say_switch b v x y)).
Proof. unfold say_switch. destruct v; [|constructor]. apply Forall_sbind; [constructor|]. intros. apply say_said. Qed.
Lemma reserve_said b v bl lp st : Forall is_said (fst (show_reserve b v bl lp st)).
Proof.
  unfold show_reserve. destruct (_ <? _); [|constructor]. destruct (_ =? _); [constructor|]. apply Forall_sbind; [apply switch_said|]. intros. constructor.
Qed.
Lemma track_said b v bl so s st i : Forall is_said (fst (show_track b v bl so s st i)).
Proof.
  unfold show_track. cbv zeta. apply Forall_sbind; [constructor|]. intros [data refs] _. apply Forall_sbind.
  - destruct (_ <? _); [|constructor]. destruct (_ =? _); [constructor|]. apply Forall_sbind; [apply switch_said|]. intros. constructor.
  - intros [[st1 pre] cur] _. apply Forall_sbind; [apply say_said|]. intros _ _. destruct (0 <? _); [|constructor]. apply Forall_sbind; constructor.
Qed.
Lemma part_said v addrs part : forall r a, Forall is_said (fst (show_part v r a addrs part)).
Proof.
  induction part as [|ti part IH]; intros r a; cbn [show_part]; [constructor|]. apply Forall_sbind; [constructor|]. intros ta _. apply Forall_sbind; [apply say_said|]. intros _ _.
  destruct (addr_to_bytes ta). apply Forall_sbind; [constructor|]. intros. apply IH.
Qed.
Lemma patch_said v addrs r x : Forall is_said (fst (show_patch v addrs r x)).
Proof.
  unfold show_patch. cbv zeta. apply Forall_sbind; [constructor|]. intros ta _. apply Forall_sbind; [apply say_said|]. intros _ _. destruct (addr_to_bytes ta). constructor.
Qed.
Lemma song_said b v bl st lp s : Forall is_said (fst (show_song b v bl st lp s)).
Proof.
  unfold show_song. cbv zeta. apply Forall_sbind; [apply reserve_said|]. intros st1 _. apply Forall_sbind; [apply say_said|]. intros _ _.
  apply Forall_sbind; [constructor|]. intros r1 _. apply Forall_sbind; [apply Forall_sfold; intros; apply track_said|]. intros ks _.
  apply Forall_sbind; [apply say_said|]. intros _ _. apply Forall_sbind; [constructor|]. intros r2 _. apply Forall_sbind; [constructor|]. intros part _.
  apply Forall_sbind; [apply part_said|]. intros r3 _. apply Forall_sbind; [apply Forall_sfold; intros; apply patch_said|]. intros r4 _. apply Forall_sbind; [apply say_said|]. intros; constructor.
Qed.
(** The projections of what is shown. *)
Lemma made_app a c : bars_made (a ++ c) = bars_made a ++ bars_made c.
Proof. induction a as [|[] a IH]; cbn [app bars_made]; rewrite ?IH; reflexivity. Qed.
Lemma finished_app a c : bars_finished (a ++ c) = bars_finished a ++ bars_finished c.
Proof. induction a as [|[] a IH]; cbn [app bars_finished]; rewrite ?IH; reflexivity. Qed.
Lemma counted_app a c : songs_counted (a ++ c) = (songs_counted a + songs_counted c)%nat.
Proof. induction a as [|e a IH]; cbn [app songs_counted]; [reflexivity|]. destruct e as [| | |[|bar]| |]; rewrite ?IH; reflexivity. Qed.
Lemma values_app bar a c : values_shown bar (a ++ c) = values_shown bar a ++ values_shown bar c.
Proof. induction a as [|[] a IH]; cbn [app values_shown]; rewrite ?IH; try reflexivity. destruct (Nat.eqb _ _); reflexivity. Qed.
Lemma totals_app bar a c : totals_set bar (a ++ c) = totals_set bar a ++ totals_set bar c.
Proof. induction a as [|[] a IH]; cbn [app totals_set]; rewrite ?IH; try reflexivity. destruct (Nat.eqb _ _); reflexivity. Qed.
Lemma said_app a c : said (a ++ c) = said a ++ said c.
Proof. induction a as [|[] a IH]; cbn [app said]; rewrite ?IH; reflexivity. Qed.
Lemma said_only l : Forall is_said l -> bars_made l = [] /\ bars_finished l = [] /\ songs_counted l = 0%nat /\ forall bar, values_shown bar l = [] /\ totals_set bar l = [].
Proof. induction 1 as [|e l He _ IH]; cbn; [auto|]. destruct e; try contradiction. exact IH. Qed.
(** One song. *)
Definition shown_value (bl : blocks) (st : wstate) : Z := song_offset st + (if rom_addr st =? base_chunk_addr bl then 0 else base_chunk_len bl).
Lemma song_def_shown b v bar bl conv st sd : let m := show_song_def b v bar bl conv st sd in
  bars_made (fst m) = [] /\ bars_finished (fst m) = [] /\ (songs_counted (fst m) <= 1)%nat /\ (forall st', snd m = Ok st' -> songs_counted (fst m) = 1%nat) /\
  (values_shown bar (fst m) = [] /\ (forall st', snd m <> Ok st') \/ values_shown bar (fst m) = [shown_value bl st]) /\
  (forall bar', bar' <> bar -> values_shown bar' (fst m) = []) /\ forall bar', totals_set bar' (fst m) = [].
Proof.
  cbv zeta. unfold show_song_def. destruct (fst_sbind (silent (check_file_name sd)) (fun _ =>
    show* _ := show [BarSet bar (song_offset st + (if rom_addr st =? base_chunk_addr bl then 0 else base_chunk_len bl))] in
    show* s := silent (load_song b conv sd) in show* st' := show_song b v bl st (loops sd) s in show* _ := show [BarInc 0] in silent (Ok st')))
    as [(a & E & -> & ->)|(E & -> & E2)].
  2:{ cbn [silent fst]. cbn. repeat split; auto. intros st' H. exfalso. eapply E2. exact H. }
  cbn [silent fst app]. clear a E. fold (shown_value bl st). set (k := show* s := silent (load_song b conv sd) in _).
  assert (K : bars_made (fst k) = [] /\ bars_finished (fst k) = [] /\ (songs_counted (fst k) <= 1)%nat /\ (forall st', snd k = Ok st' -> songs_counted (fst k) = 1%nat) /\ forall bar', values_shown bar' (fst k) = [] /\ totals_set bar' (fst k) = []).
  { unfold k. clear k. destruct (fst_sbind (silent (load_song b conv sd)) (fun s => show* st' := show_song b v bl st (loops sd) s in show* _ := show [BarInc 0] in silent (Ok st'))) as [(s & E & -> & ->)|(E & -> & E2)].
    2:{ cbn. repeat split; auto. intros st' H. exfalso. eapply E2. exact H. }
    cbn [silent fst app]. destruct (said_only _ (song_said b v bl st (loops sd) s)) as (S1 & S2 & S3 & S4).
    destruct (fst_sbind (show_song b v bl st (loops sd) s) (fun st' => show* _ := show [BarInc 0] in silent (Ok st'))) as [(st' & E' & -> & ->)|(E' & -> & E2)].
    - rewrite made_app, finished_app, counted_app, S1, S2, S3. cbn. repeat split; auto; rewrite ?values_app, ?totals_app, ?(proj1 (S4 _)), ?(proj2 (S4 _)); reflexivity.
    - rewrite S1, S2, S3. repeat split; auto; try apply S4. intros st' H. exfalso. eapply E2. exact H. }
  destruct K as (K1 & K2 & K3 & K4 & K5).
  destruct (fst_sbind (show [BarSet bar (shown_value bl st)]) (fun _ => k)) as [(a & E & -> & ->)|(E & _)]; [|exfalso; eapply E; reflexivity].
  cbn [show fst app bars_made bars_finished songs_counted values_shown totals_set]. rewrite Nat.eqb_refl. repeat split; auto.
  - right. rewrite (proj1 (K5 bar)). reflexivity.
  - intros bar' Hne. destruct (Nat.eqb_spec bar' bar); [contradiction|]. apply K5.
  - intros. apply K5.
Qed.

(** ** The bank's bar *)
Definition small (b : build) (conv : path -> f32 -> outcome song) (n : Z) (sd : song_def) : Prop :=
  forall s i data refs, load_song b conv sd = Ok s -> write_track s [] i [] = Ok (data, refs) -> Z.of_nat (length data) <= n.
Inductive inside (bl : blocks) (ra cl ab off : Z) : Prop :=
| in_base : ra = base_chunk_addr bl -> cl = base_chunk_len bl -> 0 <= off <= base_chunk_len bl -> inside bl ra cl ab off
| in_over : ra = overflow_chunk_addr bl -> cl = overflow_chunk_len bl -> ab = aram_overflow_base bl -> 0 <= off <= overflow_chunk_len bl -> inside bl ra cl ab off.
Definition position (bl : blocks) (ra off : Z) : Z := off + (if ra =? base_chunk_addr bl then 0 else base_chunk_len bl).
Lemma inside_bound bl ra cl ab off : 0 <= base_chunk_len bl -> 0 <= overflow_chunk_len bl -> inside bl ra cl ab off -> 0 <= position bl ra off <= base_chunk_len bl + overflow_chunk_len bl.
Proof. intros H1 H2 []; unfold position; destruct (_ =? _) eqn:E; lia. Qed.
Lemma track_moves b v bl so s st i st' data refs : base_chunk_addr bl <> overflow_chunk_addr bl -> write_track s [] i [] = Ok (data, refs) -> Z.of_nat (length data) <= overflow_chunk_len bl ->
  inside bl (ks_rom_addr st) (ks_chunk_length st) (ks_aram_base st) (track_data_offset st) -> write_one_track b v bl so s st i = Ok st' ->
  inside bl (ks_rom_addr st') (ks_chunk_length st') (ks_aram_base st') (track_data_offset st') /\
  position bl (ks_rom_addr st) (track_data_offset st) <= position bl (ks_rom_addr st') (track_data_offset st').
Proof.
  intros Hne Hw Hs Hin H. unfold write_one_track in H. cbv zeta in H. rewrite Hw in H. cbn [bind] in H. inv_bind H. destruct a as [[st1 pre] cur].
  assert (Hst : let off := track_data_offset st' in let len := Z.of_nat (length data) in ks_rom_addr st' = ks_rom_addr st1 /\ ks_chunk_length st' = ks_chunk_length st1 /\ ks_aram_base st' = ks_aram_base st1 /\ off = track_data_offset st1 + len).
  { cbv zeta. destruct (Z.ltb_spec 0 (Z.of_nat (length data))); [inv_bind H|]; injection H as <-; cbn; repeat split; lia. }
  cbv zeta in Hst. destruct Hst as (-> & -> & -> & ->). clear H.
  destruct (Z.ltb_spec (ks_chunk_length st) (track_data_offset st + Z.of_nat (length data))) as [Hlt|Hge].
  - destruct (Z.eqb_spec (ks_aram_base st) (aram_overflow_base bl)) as [E|E]; [discriminate|]. inv_bind Ha. injection Ha as <- _ _. cbn [ks_rom_addr ks_chunk_length ks_aram_base track_data_offset].
    split; [apply in_over; auto; lia|]. destruct Hin as [E1 E2 E3|E1 E2 E3 E4]; [|contradiction]. unfold position. rewrite E1, Z.eqb_refl. destruct (_ =? _) eqn:E4; lia.
  - injection Ha as <- _ _. split.
    + destruct Hin as [E1 E2 E3|E1 E2 E3 E4]; [apply in_base|apply in_over]; auto; lia.
    + unfold position. lia.
Qed.
Lemma tracks_move b v bl so s l : base_chunk_addr bl <> overflow_chunk_addr bl -> (forall i data refs, write_track s [] i [] = Ok (data, refs) -> Z.of_nat (length data) <= overflow_chunk_len bl) ->
  forall st st', inside bl (ks_rom_addr st) (ks_chunk_length st) (ks_aram_base st) (track_data_offset st) -> ofold (write_one_track b v bl so s) l st = Ok st' ->
  inside bl (ks_rom_addr st') (ks_chunk_length st') (ks_aram_base st') (track_data_offset st') /\
  position bl (ks_rom_addr st) (track_data_offset st) <= position bl (ks_rom_addr st') (track_data_offset st').
Proof.
  intros Hne Hs. induction l as [|i l IH]; intros st st' Hin H; cbn [ofold] in H; [injection H as <-; split; [exact Hin|lia]|].
  inv_bind H. destruct (write_track s [] i []) as [[data refs]| | |] eqn:Ew; try (unfold write_one_track in Ha; rewrite Ew in Ha; discriminate).
  destruct (track_moves _ _ _ _ _ _ _ _ _ _ Hne Ew (Hs _ _ _ Ew) Hin Ha) as [H1 H2]. destruct (IH _ _ H1 H) as [H3 H4]. split; [exact H3|lia].
Qed.
Lemma song_moves b v bl st lp s st' : base_chunk_addr bl <> overflow_chunk_addr bl -> 24 <= overflow_chunk_len bl ->
  (forall i data refs, write_track s [] i [] = Ok (data, refs) -> Z.of_nat (length data) <= overflow_chunk_len bl) ->
  inside bl (rom_addr st) (chunk_length st) (aram_base_addr st) (song_offset st) -> write_song b v bl st lp s = Ok st' ->
  inside bl (rom_addr st') (chunk_length st') (aram_base_addr st') (song_offset st') /\
  position bl (rom_addr st) (song_offset st) <= position bl (rom_addr st') (song_offset st').
Proof.
  intros Hne H24 Hs Hin H. unfold write_song in H. cbv zeta in H. inv_bind H. rename a into st1. inv_bind H. rename a into r1. inv_bind H. rename a into ks.
  inv_bind H. inv_bind H. inv_bind H. inv_bind H. injection H as <-. cbn [rom_addr chunk_length aram_base_addr song_offset].
  assert (Hh : (if lp then 8 else 4) = 8 \/ (if lp then 8 else 4) = 4) by (destruct lp; auto).
  assert (K : inside bl (rom_addr st1) (chunk_length st1) (aram_base_addr st1) (song_offset st1 + (if lp then 8 else 4) + 16) /\
    position bl (rom_addr st) (song_offset st) <= position bl (rom_addr st1) (song_offset st1 + (if lp then 8 else 4) + 16)).
  { unfold reserve_header in Ha. destruct (Z.ltb_spec (chunk_length st) (song_offset st + (if lp then 8 else 4) + 16)) as [Hlt|Hge].
    - destruct (Z.eqb_spec (aram_base_addr st) (aram_overflow_base bl)) as [E|E]; [discriminate|]. inv_bind Ha. injection Ha as <-. cbn [rom_addr chunk_length aram_base_addr song_offset].
      split; [apply in_over; auto; lia|]. destruct Hin as [E1 E2 E3|E1 E2 E3 E4]; [|contradiction]. unfold position. rewrite E1, Z.eqb_refl. destruct (_ =? _) eqn:E4; lia.
    - injection Ha as <-. split; [destruct Hin; [apply in_base|apply in_over]; auto; lia|]. unfold position. lia. }
  destruct K as [K1 K2]. eapply tracks_move in Ha1; [|exact Hne|exact Hs|exact K1]. destruct Ha1 as [K3 K4]. cbn [ks_rom_addr track_data_offset] in K4. split; [exact K3|lia].
Qed.
Lemma songs_bar b v bar bl conv : base_chunk_addr bl <> overflow_chunk_addr bl -> 0 <= base_chunk_len bl -> 24 <= overflow_chunk_len bl ->
  forall sds st, Forall (small b conv (overflow_chunk_len bl)) sds -> inside bl (rom_addr st) (chunk_length st) (aram_base_addr st) (song_offset st) ->
  advances (base_chunk_len bl + overflow_chunk_len bl) (values_shown bar (fst (sfold (show_song_def b v bar bl conv) sds st))) /\
  Forall (fun x => position bl (rom_addr st) (song_offset st) <= x) (values_shown bar (fst (sfold (show_song_def b v bar bl conv) sds st))).
Proof.
  intros Hne H0 H24. induction sds as [|sd sds IH]; intros st Hs Hin; [cbn; repeat constructor|]. inversion Hs as [|? ? Hs1 Hs2]; subst. cbn [sfold].
  pose proof (song_def_shown b v bar bl conv st sd) as (_ & _ & _ & _ & Hv & _). cbv zeta in Hv.
  destruct (inside_bound _ _ _ _ _ H0 ltac:(lia) Hin) as [B1 B2]. change (shown_value bl st) with (position bl (rom_addr st) (song_offset st)) in Hv.
  destruct (fst_sbind (show_song_def b v bar bl conv st sd) (fun s' => sfold (show_song_def b v bar bl conv) sds s')) as [(st' & E & -> & _)|(E & -> & _)].
  - destruct Hv as [[_ Hv]|Hv]; [exfalso; eapply Hv; exact E|]. rewrite values_app, Hv. cbn [app].
    rewrite song_def_snd in E. unfold write_song_def in E. inv_bind E. inv_bind E.
    destruct (song_moves b v bl st (loops sd) a0 st' Hne H24 ltac:(intros; eapply Hs1; eauto) Hin E) as [M1 M2]. destruct (IH st' Hs2 M1) as [[I1 I2] I3].
    assert (I4 : Forall (fun x => position bl (rom_addr st) (song_offset st) <= x) (values_shown bar (fst (sfold (show_song_def b v bar bl conv) sds st')))).
    { eapply Forall_impl; [|exact I3]. cbv beta. intros. lia. }
    split; [split|]; constructor; auto; lia.
  - destruct Hv as [[Hv _]|Hv]; rewrite Hv; repeat constructor; lia.
Qed.
(** ** Counting *)
Lemma songs_shown b v bar bl conv sds : forall st, let m := sfold (show_song_def b v bar bl conv) sds st in
  bars_made (fst m) = [] /\ bars_finished (fst m) = [] /\ (songs_counted (fst m) <= length sds)%nat /\ (forall st', snd m = Ok st' -> songs_counted (fst m) = length sds) /\
  (forall bar', bar' <> bar -> values_shown bar' (fst m) = []) /\ forall bar', totals_set bar' (fst m) = [].
Proof.
  induction sds as [|sd sds IH]; intros st; cbv zeta; cbn [sfold]; [cbn; repeat split; auto|].
  pose proof (song_def_shown b v bar bl conv st sd) as (H1 & H2 & H3 & H4 & _ & H5 & H6).
  destruct (fst_sbind (show_song_def b v bar bl conv st sd) (fun s' => sfold (show_song_def b v bar bl conv) sds s')) as [(st' & E & -> & ->)|(E & -> & E2)].
  - specialize (IH st'). cbv zeta in IH. destruct IH as (I1 & I2 & I3 & I4 & I5 & I6). specialize (H4 _ E). rewrite made_app, finished_app, counted_app, H1, H2, H4, I1, I2. cbn [length app].
    repeat split; auto; try lia.
    + intros s2 E2. rewrite (I4 _ E2). lia.
    + intros. rewrite values_app, H5, I5 by assumption. reflexivity.
    + intros. rewrite totals_app, H6, I6. reflexivity.
  - cbn [length]. repeat split; auto; try lia. intros s2 E3. exfalso. eapply E2. exact E3.
Qed.
Lemma bank_shown b v bar bk r ba fa first conv : let m := show_bank b v bar bk r ba fa first conv in
  bars_made (fst m) = [] /\ bars_finished (fst m) = [] /\ (songs_counted (fst m) <= length (songs bk))%nat /\ (forall r', snd m = Ok r' -> songs_counted (fst m) = length (songs bk)) /\
  (forall bar', bar' <> bar -> values_shown bar' (fst m) = [] /\ totals_set bar' (fst m) = []).
Proof.
  cbv zeta. unfold show_bank.
  set (k := fun bl : blocks => show* _ := say v (BankStart (base_chunk_addr bl) (Z.of_nat first) (base_chunk_len bl)) in _).
  destruct (fst_sbind (silent (find_blocks b r ba)) k) as [(bl & E & -> & ->)|(E & -> & E2)]; subst k; cbv beta in *.
  2:{ cbn [silent fst bars_made bars_finished songs_counted]. split; [reflexivity|]. split; [reflexivity|]. split; [lia|]. split; [intros r' H; exfalso; eapply E2; exact H|]. split; reflexivity. }
  cbn [silent fst app]. set (k := fun _ : unit => show* _ := show [BarTotal bar (base_chunk_len bl + overflow_chunk_len bl)] in _).
  destruct (fst_sbind (say v (BankStart (base_chunk_addr bl) (Z.of_nat first) (base_chunk_len bl))) k) as [([] & E' & -> & ->)|(E' & _)]; [|exfalso; eapply E'; reflexivity].
  subst k. cbv beta in *. destruct (said_only _ (say_said v (BankStart (base_chunk_addr bl) (Z.of_nat first) (base_chunk_len bl)))) as (S1 & S2 & S3 & S4).
  set (k := fun _ : unit => show* st := sfold (show_song_def b v bar bl conv) (songs bk) (wstate_init r bl fa first) in _).
  destruct (fst_sbind (show [BarTotal bar (base_chunk_len bl + overflow_chunk_len bl)]) k) as [([] & E2 & -> & ->)|(E2 & _)]; [|exfalso; eapply E2; reflexivity].
  subst k. cbv beta in *. pose proof (songs_shown b v bar bl conv (songs bk) (wstate_init r bl fa first)) as (H1 & H2 & H3 & H4 & H5 & H6).
  rewrite made_app, finished_app, counted_app, S1, S2, S3. cbn [show fst app bars_made bars_finished songs_counted].
  assert (V : forall l bar', bar' <> bar -> values_shown bar' (fst (say v (BankStart (base_chunk_addr bl) (Z.of_nat first) (base_chunk_len bl))) ++ BarTotal bar (base_chunk_len bl + overflow_chunk_len bl) :: l) = values_shown bar' l /\
    totals_set bar' (fst (say v (BankStart (base_chunk_addr bl) (Z.of_nat first) (base_chunk_len bl))) ++ BarTotal bar (base_chunk_len bl + overflow_chunk_len bl) :: l) = totals_set bar' l).
  { intros l bar' Hb. rewrite values_app, totals_app, (proj1 (S4 _)), (proj2 (S4 _)). cbn [app values_shown totals_set]. destruct (Nat.eqb_spec bar' bar); [contradiction|]. auto. }
  destruct (fst_sbind (sfold (show_song_def b v bar bl conv) (songs bk) (wstate_init r bl fa first)) (fun st => silent (clear_table (ws_rom st) (song_table_addr st) (base_chunk_addr bl + fa - ARAM_BASE)))) as [(st & E3 & -> & ->)|(E3 & -> & E4)].
  - cbn [silent fst]. rewrite app_nil_r. split; [exact H1|]. split; [exact H2|]. split; [exact H3|]. split; [intros; eapply H4; exact E3|]. intros bar' Hb. destruct (V (fst (sfold (show_song_def b v bar bl conv) (songs bk) (wstate_init r bl fa first))) bar' Hb) as [-> ->]. auto.
  - split; [exact H1|]. split; [exact H2|]. split; [exact H3|]. split; [intros r' H; exfalso; eapply E4; exact H|]. intros bar' Hb. destruct (V (fst (sfold (show_song_def b v bar bl conv) (songs bk) (wstate_init r bl fa first))) bar' Hb) as [-> ->]. auto.
Qed.
Lemma banks_shown b v addrs conv bks : forall i first r, let m := show_banks b v bks i first r addrs conv in
  bars_made (fst m) = [] /\ (songs_counted (fst m) <= list_sum (map (fun bk => length (songs bk)) bks))%nat /\
  (forall r', snd m = Ok r' -> bars_finished (fst m) = seq (S i) (length bks) /\ songs_counted (fst m) = list_sum (map (fun bk => length (songs bk)) bks)) /\
  ((forall r', snd m <> Ok r') -> exists k, (k < length bks)%nat /\ bars_finished (fst m) = seq (S i) k).
Proof.
  induction bks as [|bk bks IH]; intros i first r; cbv zeta; cbn [show_banks].
  { cbn. split; [reflexivity|]. split; [lia|]. split; [auto|]. intros H. exfalso. eapply H. reflexivity. }
  set (total := list_sum (map (fun bk0 => length (songs bk0)) (bk :: bks))).
  assert (Et : total = (length (songs bk) + list_sum (map (fun bk0 => length (songs bk0)) bks))%nat) by reflexivity.
  assert (Stop : forall l, bars_finished l = [] -> exists k, (k < length (bk :: bks))%nat /\ bars_finished l = seq (S i) k).
  { intros l E. exists 0%nat. split; [cbn; lia|exact E]. }
  set (k1 := fun ba : Z => show* fa := silent (or_panic PIndex (nth_error BANK_FIRST_SONG_ADDRS i)) in _).
  destruct (fst_sbind (silent (or_panic PIndex (nth_error addrs i))) k1) as [(ba & E1 & -> & ->)|(E1 & -> & E2)]; subst k1; cbv beta in *.
  2:{ cbn [silent fst bars_made songs_counted]. split; [reflexivity|]. split; [lia|]. split; [intros r' H; exfalso; eapply E2; exact H|]. intros _. apply Stop. reflexivity. }
  cbn [silent fst app]. set (k1 := fun fa : Z => show* r' := show_bank b v (S i) bk r ba fa first conv in _).
  destruct (fst_sbind (silent (or_panic PIndex (nth_error BANK_FIRST_SONG_ADDRS i))) k1) as [(fa & E2 & -> & ->)|(E2 & -> & E3)]; subst k1; cbv beta in *.
  2:{ cbn [silent fst bars_made songs_counted]. split; [reflexivity|]. split; [lia|]. split; [intros r' H; exfalso; eapply E3; exact H|]. intros _. apply Stop. reflexivity. }
  cbn [silent fst app]. pose proof (bank_shown b v (S i) bk r ba fa first conv) as (B1 & B2 & B3 & B4 & _).
  set (k1 := fun r' : image => show* _ := show [BarDone (S i)] in _).
  destruct (fst_sbind (show_bank b v (S i) bk r ba fa first conv) k1) as [(r' & E3 & -> & ->)|(E3 & -> & E4)]; subst k1; cbv beta in *.
  2:{ rewrite B1. split; [reflexivity|]. split; [lia|]. split; [intros r' H; exfalso; eapply E4; exact H|]. intros _. apply Stop. exact B2. }
  destruct (fst_sbind (show [BarDone (S i)]) (fun _ => show_banks b v bks (S i) (first + length (songs bk)) r' addrs conv)) as [([] & E4 & -> & ->)|(E4 & _)]; [|exfalso; eapply E4; reflexivity].
  specialize (B4 _ E3). specialize (IH (S i) (first + length (songs bk))%nat r'). cbv zeta in IH. destruct IH as (I1 & I2 & I3 & I4).
  rewrite made_app, counted_app, finished_app, B1, B2, B4. cbn [show fst app bars_made songs_counted bars_finished length seq]. split; [exact I1|]. split; [lia|]. split.
  - intros r2 E5. destruct (I3 _ E5) as [-> ->]. split; [reflexivity|lia].
  - intros E5. destruct (I4 E5) as (k & Hk & ->). exists (S k). split; [lia|reflexivity].
Qed.
Lemma new_bars_made m : bars_made (new_bars m) = (0%nat, Z.of_nat (list_sum (map (fun bk => length (songs bk)) m))) :: map (fun i => (S i, 1)) (seq 0 (length m)) /\
  bars_finished (new_bars m) = [] /\ songs_counted (new_bars m) = 0%nat.
Proof.
  unfold new_bars. cbn [bars_made bars_finished songs_counted].
  assert (Ef : forall l n, fold_left (fun acc bk => acc + length (songs bk))%nat l n = (n + list_sum (map (fun bk => length (songs bk)) l))%nat).
  { induction l as [|bk l IH]; intros n; cbn [fold_left map]; [apply plus_n_O|]. rewrite IH. unfold list_sum. cbn [fold_right map]. lia. }
  rewrite Ef. generalize (seq 0 (length m)). intros l.
  assert (K : bars_made (flat_map (fun i => [BarNew (S i) 1; BarSet (S i) 0]) l) = map (fun i => (S i, 1)) l /\ bars_finished (flat_map (fun i => [BarNew (S i) 1; BarSet (S i) 0]) l) = [] /\ songs_counted (flat_map (fun i => [BarNew (S i) 1; BarSet (S i) 0]) l) = 0%nat).
  { induction l as [|i l (I1 & I2 & I3)]; cbn; auto. rewrite I1, I2, I3. auto. }
  destruct K as (-> & -> & ->). auto.
Qed.
Lemma write_shown b v m file addrs conv os : let w := show_write b v m file true addrs conv os in
  let songs_total := list_sum (map (fun bk => length (songs bk)) m) in
  bars_made (fst w) = (0%nat, Z.of_nat songs_total) :: map (fun i => (S i, 1)) (seq 0 (length m)) /\
  (songs_counted (fst w) <= songs_total)%nat /\
  (snd w = Ok tt -> bars_finished (fst w) = seq 1 (length m) ++ [0%nat] /\ songs_counted (fst w) = songs_total /\ exists l, fst w = l ++ [BarDone 0]) /\
  (snd w <> Ok tt -> exists k, (k <= length m)%nat /\ bars_finished (fst w) = seq 1 k).
Proof.
  cbv zeta. unfold show_write. set (k1 := fun _ : unit => show* _ := show_banks b v m 0 0 file addrs conv in _).
  destruct (fst_sbind (show (new_bars m)) k1) as [([] & _ & -> & ->)|(E & _)]; [|exfalso; eapply E; reflexivity]. subst k1. cbv beta. cbn [show fst].
  destruct (new_bars_made m) as (N1 & N2 & N3). pose proof (banks_shown b v addrs conv m 0 0 file) as (B1 & B2 & B3 & B4).
  rewrite made_app, counted_app, finished_app, N1, N2, N3. cbn [app Nat.add].
  set (k1 := fun _ : image => show* _ := silent (match os with Wrote _ => Ok tt | WriteFailed => Err EIo end) in _).
  destruct (fst_sbind (show_banks b v m 0 0 file addrs conv) k1) as [(r' & E1 & -> & ->)|(E1 & -> & E2)]; subst k1; cbv beta in *.
  - destruct (B3 _ E1) as [F1 F2]. rewrite made_app, counted_app, finished_app, B1, F1, F2.
    destruct (fst_sbind (silent (match os with Wrote _ => Ok tt | WriteFailed => Err EIo end)) (fun _ => show [BarDone 0])) as [([] & E2 & -> & ->)|(E2 & -> & E3)]; cbn [silent show fst snd app bars_made songs_counted bars_finished].
    + rewrite app_nil_r. split; [reflexivity|]. split; [lia|]. split; [|congruence]. intros _. split; [reflexivity|]. split; [lia|].
      exists (new_bars m ++ fst (show_banks b v m 0 0 file addrs conv)). apply app_assoc.
    + rewrite !app_nil_r. split; [reflexivity|]. split; [lia|]. split; [intros H; exfalso; eapply E3; exact H|]. intros _. exists (length m). split; [lia|reflexivity].
  - rewrite B1, app_nil_r. split; [reflexivity|]. split; [lia|]. split; [intros H; exfalso; eapply E2; exact H|]. intros _. destruct (B4 E1) as (k & Hk & ->). exists k. split; [lia|reflexivity].
Qed.
Lemma counted_prefix a c : (songs_counted a <= songs_counted (a ++ c))%nat. Proof. rewrite counted_app. lia. Qed.
Lemma display_ends b v m file op addrs conv os log ms : show_write b v m file op addrs conv os = (log, Ok tt) -> sends log ms ->
  always_joins (mk_threads ms [] (length (bars_made log)) false).
Proof.
  intros E Hs. destruct op; [|discriminate]. pose proof (write_shown b v m file addrs conv os) as H. cbv zeta in H. rewrite E in H. cbn [fst snd] in H.
  destruct H as (H1 & _ & H2 & _). destruct (H2 eq_refl) as (H3 & _ & l & H4).
  apply (joins_all (S (work (mk_threads ms [] (length (bars_made log)) false)))); cbn [to_send channel bars_left joined app]; auto.
  - rewrite (sends_fins _ _ Hs), H3, H1, app_length, seq_length. cbn [length]. rewrite map_length, seq_length. lia.
  - rewrite H4 in Hs. apply sends_app in Hs. destruct Hs as (m1 & m2 & -> & _ & S2). inversion S2 as [| | | | | |k bar l0 ms0 S3]; subst. inversion S3; subst. right. exists (m1 ++ repeat Draw k). rewrite app_assoc. reflexivity.
Qed.
Lemma missing_blocks log ms : sends log ms -> (length (bars_finished log) < length (bars_made log))%nat -> ~ always_joins (mk_threads ms [] (length (bars_made log)) false).
Proof. intros Hs Hl H. apply (unfinished_blocks _ H); [reflexivity|]. cbn [to_send channel bars_left app]. rewrite (sends_fins _ _ Hs). exact Hl. Qed.
