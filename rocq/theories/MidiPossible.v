(** MidiPossible.v: the lines about possible voices in the verbose output of the MIDI reader (C83). *)
From Coq Require Import ZArith List Bool Lia ZifyBool ZifyNat Permutation Sorted.
From Verif Require Import Base ProofLib Messages Midi MidiLog SpecMidi SpecNotes SpecVoices SpecMidiLog.
From Verif Require Import MergeProofs LoopProofs VoiceProofs DistributeProofs ReadProofs ReadProofs2 TotalProofs BaseVoiceProofs MidiLogProofs FileExamples.
Import ListNotations.
Open Scope Z_scope.

Lemma overlapping_none ch v a e : overlapping_interval ch v = None -> In a ch -> In e v -> overlaps a e = false.
Proof.
  induction ch as [|a' ch IH]; intros H Ha He; [destruct Ha|]. cbn [overlapping_interval fold_right] in H.
  destruct (find (overlaps a') v) eqn:E; [discriminate|]. destruct Ha as [->|Ha]; [|exact (IH H Ha He)]. exact (find_none _ _ E e He).
Qed.

Lemma voices_possible ch : forall active i fe, let r := voices_printing ch active i fe in
  (forall x, In x (fst r) -> exists v e, x = Overlaps v e) /\
  StronglySorted lt (snd r) /\ Forall (fun v => (i <= v < i + length active)%nat) (snd r) /\
  (forall v, In v (snd r) -> forall a e, In a ch -> In e (nth (v - i) active []) -> overlaps a e = false) /\
  (forall k, (k < length active)%nat -> ~ In (i + k)%nat (snd r) ->
     (exists e, In (Overlaps (i + k)%nat e) (fst r)) \/
     nth k active [] = [] /\ (fe = true \/ exists j, (j < k)%nat /\ In (i + j)%nat (snd r) /\ nth j active [] = [])).
Proof.
  induction active as [|v active IH]; intros i fe; cbn zeta.
  { cbn. split; [intros x []|]. split; [constructor|]. split; [constructor|]. split; [intros v []|]. intros k Hk. lia. }
  cbn [voices_printing length]. set (empty := match v with [] => true | _ => false end).
  assert (Hlift : forall fe' (vs : list nat), snd (voices_printing ch active (S i) fe') = vs ->
     Forall (fun w => (i <= w < i + S (length active))%nat) vs /\
     (forall w, In w vs -> forall a e, In a ch -> In e (nth (w - i) (v :: active) []) -> overlaps a e = false)).
  { intros fe' vs <-. destruct (IH (S i) fe') as (_ & _ & B & C & _). rewrite Forall_forall in B. split.
    - apply Forall_forall. intros w Hw. specialize (B w Hw). lia.
    - intros w Hw a e Ha He. specialize (B w Hw). replace (w - i)%nat with (S (w - S i)) in He by lia. exact (C w Hw a e Ha He). }
  destruct (negb fe || negb empty)%bool eqn:G.
  - destruct (overlapping_interval ch v) as [e0|] eqn:E; cbn [fst snd].
    + destruct (IH (S i) fe) as (A & B & C & D & F). destruct (Hlift fe _ eq_refl) as (L1 & L2).
      split; [intros x [<-|Hx]; [eauto|exact (A x Hx)]|]. split; [exact B|]. split; [exact L1|]. split; [exact L2|].
      intros [|k] Hk Hn; [left; exists e0; left; f_equal; lia|]. rewrite Nat.add_succ_r in Hn. destruct (F k ltac:(lia) Hn) as [[e He]|(He & Hj)].
      * left. exists e. right. rewrite Nat.add_succ_r. exact He.
      * right. split; [exact He|]. destruct Hj as [->|(j & Hj1 & Hj2 & Hj3)]; [left; reflexivity|]. right. exists (S j). split; [lia|]. rewrite Nat.add_succ_r. auto.
    + destruct (IH (S i) (fe || empty)%bool) as (A & B & C & D & F). destruct (Hlift (fe || empty)%bool _ eq_refl) as (L1 & L2).
      split; [exact A|]. split; [constructor; [exact B|]|].
      { rewrite Forall_forall in C |- *. intros w Hw. specialize (C w Hw). lia. }
      split; [constructor; [lia|exact L1]|]. split.
      { intros w [<-|Hw]; [|exact (L2 w Hw)]. intros a e Ha He. replace (i - i)%nat with O in He by lia. exact (overlapping_none _ _ _ _ E Ha He). }
      intros [|k] Hk Hn; [exfalso; apply Hn; left; lia|]. rewrite Nat.add_succ_r in Hn. destruct (F k ltac:(lia)) as [[e He]|(He & Hj)].
      * intros H. apply Hn. right. exact H.
      * left. exists e. rewrite Nat.add_succ_r. exact He.
      * right. split; [exact He|]. destruct Hj as [Hj|(j & Hj1 & Hj2 & Hj3)].
        { apply orb_true_iff in Hj. destruct Hj as [->|Hj]; [left; reflexivity|]. right. exists O. split; [lia|]. split; [left; lia|]. unfold empty in Hj. destruct v; [reflexivity|discriminate]. }
        right. exists (S j). split; [lia|]. split; [right; rewrite Nat.add_succ_r; exact Hj2|exact Hj3].
  - destruct (IH (S i) fe) as (A & B & C & D & F). destruct (Hlift fe _ eq_refl) as (L1 & L2).
    split; [exact A|]. split; [exact B|]. split; [exact L1|]. split; [exact L2|].
    apply orb_false_iff in G. destruct G as [G1 G2]. apply negb_false_iff in G1, G2.
    intros [|k] Hk Hn.
    + right. split; [unfold empty in G2; destruct v; [reflexivity|discriminate]|left; exact G1].
    + rewrite Nat.add_succ_r in Hn. destruct (F k ltac:(lia) Hn) as [[e He]|(He & Hj)].
      * left. exists e. rewrite Nat.add_succ_r. exact He.
      * right. split; [exact He|]. left. exact G1.
Qed.

Definition possible_true (ivs : list (list interval)) (p : list line) (vs : list nat) : Prop :=
  exists c p0 mid, p = p0 ++ Searching c :: mid /\ (c < length ivs)%nat /\ (forall x, In x mid -> exists v e, x = Overlaps v e) /\
    StronglySorted lt vs /\ Forall (fun v => (v < 8)%nat) vs /\
    (forall v c' a e, In v vs -> (c' < c)%nat -> last_tried c' p = Some v -> In a (nth c ivs []) -> In e (nth c' ivs []) -> overlaps a e = false) /\
    (forall v, (v < 8)%nat -> ~ In v vs -> (exists e, In (Overlaps v e) mid) \/
       exists w, (w < v)%nat /\ In w vs /\ forall c', (c' < c)%nat -> last_tried c' p = Some v \/ last_tried c' p = Some w -> nth c' ivs [] = []).
Definition candid (ivs : list (list interval)) (p l : list line) : Prop :=
  forall p1 vs q, l = p1 ++ Possible vs :: q -> possible_true ivs (p ++ p1) vs.
Lemma candid_silent ivs p l : (forall vs, ~ In (Possible vs) l) -> candid ivs p l.
Proof. intros H p1 vs q ->. exfalso. apply (H vs), in_app_iff. right. left. reflexivity. Qed.
Lemma candid_cons ivs p x l : (forall vs, x = Possible vs -> possible_true ivs p vs) -> candid ivs (p ++ [x]) l -> candid ivs p (x :: l).
Proof.
  intros Hx Hl p1 vs q H. destruct p1 as [|y p1].
  - injection H as -> _. rewrite app_nil_r. apply Hx. reflexivity.
  - injection H as <- H. replace (p ++ x :: p1) with ((p ++ [x]) ++ p1) by (rewrite <- app_assoc; reflexivity). exact (Hl _ _ _ H).
Qed.
Lemma candid_app ivs l1 : forall p l2, candid ivs p l1 -> candid ivs (p ++ l1) l2 -> candid ivs p (l1 ++ l2).
Proof.
  induction l1 as [|x l1 IH]; intros p l2 H1 H2; [rewrite app_nil_r in H2; exact H2|]. cbn [app]. apply candid_cons.
  - intros vs ->. specialize (H1 [] vs l1 eq_refl). rewrite app_nil_r in H1. exact H1.
  - apply IH; [|rewrite <- app_assoc; exact H2]. intros p1 vs q H. rewrite <- app_assoc. apply (H1 (x :: p1) vs q). cbn. rewrite H. reflexivity.
Qed.

Lemma upd_length_app (active : list (list interval)) v ch : length (upd active v (fun l => l ++ ch)) = length active.
Proof.
  unfold upd. destruct (nth_error active v) as [x|] eqn:E; [|reflexivity]. assert (v < length active)%nat by (apply nth_error_Some; congruence).
  rewrite app_length. cbn [length]. rewrite firstn_length, skipn_length. lia.
Qed.
Lemma upd_keeps (active : list (list interval)) v ch k : (v < length active)%nat ->
  incl (nth k active []) (nth k (upd active v (fun l => l ++ ch)) []) /\ incl ch (nth v (upd active v (fun l => l ++ ch)) []).
Proof.
  unfold upd. revert v k. induction active as [|x active IH]; intros v k Hv; [cbn in Hv; lia|]. destruct v as [|v]; cbn [nth_error].
  - cbn [firstn skipn app]. split; [|cbn [nth]; apply incl_appr, incl_refl]. destruct k as [|k]; cbn [nth]; [apply incl_appl, incl_refl|apply incl_refl].
  - cbn [length] in Hv. specialize (IH v). destruct (nth_error active v) as [y|] eqn:E.
    + cbn [firstn skipn app nth]. split; [destruct k as [|k]; cbn [nth]; [apply incl_refl|apply (IH k); lia]|apply (IH O); lia].
    + apply nth_error_None in E. lia.
Qed.

Definition placed_so_far (ivs : list (list interval)) (c : nat) (active : list (list interval)) (p : list line) : Prop :=
  length active = 8%nat /\
  (forall k e, In e (nth k active []) -> (i_channel e < c)%nat /\ last_tried (i_channel e) p = Some k /\ In e (nth (i_channel e) ivs [])) /\
  (forall c', (c' < c)%nat -> exists k, last_tried c' p = Some k /\ incl (nth c' ivs []) (nth k active [])).
Lemma placed_same ivs c active p q : (forall c', (c' < c)%nat -> last_tried c' q = last_tried c' p) -> placed_so_far ivs c active p -> placed_so_far ivs c active q.
Proof.
  intros H (A & B & C). split; [exact A|]. split.
  - intros k e He. destruct (B k e He) as (B1 & B2 & B3). split; [exact B1|]. split; [|exact B3]. rewrite H by exact B1. exact B2.
  - intros c' Hc. rewrite H by exact Hc. exact (C c' Hc).
Qed.

Lemma find_candid ivs : (forall c e, In e (nth c ivs []) -> i_channel e = c) -> forall chs c active p,
  (forall k, nth k chs [] = nth (c + k) ivs []) -> (c + length chs = length ivs)%nat ->
  placed_so_far ivs c active p -> candid ivs p (fst (find_printing c chs active)).
Proof.
  intros Hch. induction chs as [|ch chs IH]; intros c active p Hn Hl Ha; [apply candid_silent; intros vs []|]. cbn [find_printing]. cbv zeta. cbn [fst].
  assert (Hc : ch = nth c ivs []) by (specialize (Hn O); rewrite Nat.add_0_r in Hn; exact Hn). cbn [length] in Hl.
  destruct (voices_possible ch active 0 false) as (V1 & V2 & V3 & V4 & V5).
  set (vl := fst (voices_printing ch active 0 false)) in *.
  apply candid_cons; [discriminate|]. apply candid_app.
  { apply candid_silent. intros vs Hin. destruct (V1 _ Hin) as (v & e & E). discriminate. }
  assert (Ha1 : placed_so_far ivs c active ((p ++ [Searching c]) ++ vl)).
  { eapply placed_same; [|exact Ha]. intros c' _. change (tried c' ((p ++ [Searching c]) ++ vl) None = tried c' p None).
    rewrite tried_app. unfold vl. rewrite voices_untried, tried_app. reflexivity. }
  apply candid_cons.
  { intros vs [= <-]. exists c, p, vl. split; [rewrite <- app_assoc; reflexivity|]. split; [lia|]. split; [exact V1|]. split; [exact V2|].
    destruct Ha1 as (L8 & B & C). rewrite L8 in *. split; [eapply Forall_impl; [|exact V3]; cbn; lia|]. split.
    - intros v c' a e Hv Hc' Hl' Ha' He. destruct (C c' Hc') as (k & Hk & Hi). rewrite Hl' in Hk. injection Hk as <-.
      apply (V4 v Hv); [rewrite Hc; exact Ha'|]. rewrite Nat.sub_0_r. apply Hi, He.
    - intros v Hv Hnv. destruct (V5 v Hv Hnv) as [He|(He & [Hf|(j & J1 & J2 & J3)])]; [left; exact He|discriminate|]. right. exists j. split; [exact J1|]. split; [exact J2|].
      intros c' Hc' Ht. destruct (C c' Hc') as (k & Hk & Hi). assert (Ek : nth k active [] = []) by (rewrite Hk in Ht; destruct Ht as [[= ->]|[= ->]]; assumption).
      rewrite Ek in Hi. destruct (nth c' ivs []) as [|x l]; [reflexivity|]. destruct (Hi x). left. reflexivity. }
  match goal with |- candid ivs ?q _ => set (p2 := q) end.
  assert (Ha2 : placed_so_far ivs c active p2).
  { eapply placed_same; [|exact Ha1]. intros c' _. unfold p2. rewrite last_tried_snoc by discriminate. reflexivity. }
  clearbody p2. destruct Ha1 as (L8 & _). rewrite L8 in V3. clear Ha p V1 V2 V4 V5 vl. revert V3 p2 Ha2. generalize (snd (voices_printing ch active 0 false)). intros vs V3.
  induction vs as [|v vs IHv]; intros p Ha; [apply candid_silent; intros vs []|]. cbn [try_printing]. cbv zeta. inversion V3; subst.
  assert (Hrec : candid ivs (p ++ [Trying c v]) (fst (find_printing (S c) chs (upd active v (fun l => l ++ nth c ivs []))))).
  { apply IH.
    - intros k. specialize (Hn (S k)). cbn [nth] in Hn. rewrite Hn. f_equal. lia.
    - lia.
    - destruct Ha as (A & B & C). split; [rewrite upd_length_app; exact A|]. split.
      + intros k e He. change (last_tried ?x (p ++ [Trying c v])) with (tried x (p ++ [Trying c v]) None). rewrite tried_app, tried_cons.
        destruct (nth_upd_app _ _ _ _ _ He) as [H|[-> H]].
        * destruct (B k e H) as (B1 & B2 & B3). split; [lia|]. split; [|exact B3]. destruct (Nat.eqb_spec c (i_channel e)); [lia|]. exact B2.
        * pose proof (Hch _ _ H) as Hi. split; [lia|]. split; [|rewrite Hi; exact H]. rewrite Hi, Nat.eqb_refl. reflexivity.
      + intros c' Hc'. change (last_tried ?x (p ++ [Trying c v])) with (tried x (p ++ [Trying c v]) None). rewrite tried_app, tried_cons.
        destruct (Nat.eqb_spec c c') as [->|Hne].
        * exists v. split; [reflexivity|]. apply (upd_keeps active v (nth c' ivs []) v). lia.
        * destruct (C c' ltac:(lia)) as (k & Hk & Hi). exists k. split; [exact Hk|]. eapply incl_tran; [exact Hi|]. apply upd_keeps. lia. }
  destruct (snd (find_printing (S c) chs _)) eqn:E; cbn [fst].
  - apply candid_cons; [discriminate|exact Hrec].
  - apply candid_cons; [discriminate|]. apply candid_app; [exact Hrec|]. apply IHv; [assumption|]. eapply placed_same; [|exact Ha]. intros c' Hc'.
    change (tried c' ((p ++ [Trying c v]) ++ fst (find_printing (S c) chs (upd active v (fun l => l ++ nth c ivs [])))) None = tried c' p None).
    rewrite tried_app, find_earlier by lia. rewrite tried_app, tried_cons. destruct (Nat.eqb_spec c c'); [lia|]. reflexivity.
Qed.

Definition nopos (l : list line) : Prop := forall vs, ~ In (Possible vs) l.
Lemma nopos_pbind {A B} (m : printing A) (f : A -> printing B) : nopos (fst m) -> (forall a, nopos (fst (f a))) -> nopos (fst (pbind m f)).
Proof.
  intros Hm Hf vs. destruct m as [l [a|x|x|]]; cbn [pbind fst snd] in *; try exact (Hm vs). intros H. apply in_app_iff in H. destruct H as [H|H]; [exact (Hm vs H)|exact (Hf a vs H)].
Qed.
Lemma nopos_silent {A} (m : outcome A) : nopos (fst (silent m)).
Proof. intros vs []. Qed.
Lemma nopos_merge chs base order : nopos (fst (merge_printing chs base order)).
Proof.
  apply nopos_pbind; [|intros; apply nopos_silent].
  generalize (S (list_sum (map (@length tmsg) chs))) as fuel, (repeat O (length chs)) as idx, (length (filter is_nil chs)) as done, (vstate0 base) as s.
  induction fuel as [|fuel IH]; intros idx done s; cbn [loop_printing]; (destruct (Nat.ltb done (length chs)); [|apply nopos_silent]); [apply nopos_silent|].
  do 5 (apply nopos_pbind; [apply nopos_silent|intros ?]). apply nopos_pbind; [|intros ?; apply IH].
  unfold step_printing. destruct a2 as [m t]. destruct m as [? ? ?|d [c k vel|c k vel|c k vel|c ctl dat|c pr|c pr|c dat|c]|? ? ?|]; try apply nopos_silent.
  destruct (v_retrigger s d c k vel t) as [s'| | |]; try apply nopos_silent. cbn [fst]. intros vs H. destruct (0 <? vel); [|destruct H].
  unfold choice_printing in H. destruct (nth_error base (Z.to_nat c)) as [n|]; [|destruct H]. destruct (voice_active (v_active s') n); [|destruct H].
  destruct H as [H|H]; [discriminate|]. destruct (choose_voice base n (v_active s')); [|destruct H]. destruct H as [H|[]]. discriminate.
Qed.
Lemma nopos_extract b ts : nopos (fst (extract_printing b ts)).
Proof.
  apply nopos_pbind; [|intros; apply nopos_silent]. generalize O as i, (repeat (@nil tmsg) 16) as chs.
  induction ts as [|tr ts IH]; intros i chs; cbn [distribute_printing]; [apply nopos_silent|].
  apply nopos_pbind; [intros vs [H|[]]; discriminate|intros _]. apply nopos_pbind; [apply nopos_silent|intros ?; apply IH].
Qed.
Lemma read_candid b cbs complete order log r vs : Forall callback_typed cbs -> read_printing b true cbs complete order = (log, r) -> In (Possible vs) log ->
  exists chs ivs mx, tracks_to_channels b (tracks_of cbs) = Ok chs /\ all_intervals b chs 0 0 = Ok (ivs, mx) /\ candid ivs [] log.
Proof.
  intros Hcb H Hin. unfold read_printing in H. cbv zeta in H. destruct (format1 false cbs) eqn:Ef.
  2:{ destruct (callbacks_bad cbs [] 0 Ef) as [p E]. rewrite E in H. injection H as <- <-. destruct Hin as [Hin|[]]; discriminate. }
  destruct (callbacks_ok cbs 0 Ef) as [tpb Er]. rewrite Er in H. cbn [silent pbind fst snd print r_tracks r_tpb] in H.
  destruct complete; [|injection H as <- <-; destruct Hin as [Hin|[]]; discriminate].
  pose proof (nopos_extract b (tracks_of cbs)) as Hne. pose proof (extract_same b (tracks_of cbs)) as Hes.
  destruct (extract_printing b (tracks_of cbs)) as [le oe] eqn:Ee. cbn [fst snd] in Hne, Hes.
  assert (Hcut : log = Reading :: le -> False) by (intros ->; destruct Hin as [Hin|Hin]; [discriminate|exact (Hne _ Hin)]).
  destruct oe as [chs|x|x|]; cbn [pbind fst snd app] in H; try (exfalso; apply Hcut; congruence).
  destruct (all_intervals b chs 0 0) as [[ivs mx]|x|x|] eqn:Hiv; cbn [pbind silent fst snd app] in H; try (exfalso; apply Hcut; rewrite app_nil_r in H; congruence).
  exists chs, ivs, mx. split; [auto|]. split; [exact Hiv|]. pose proof (extract_told _ _ _ _ Ee) as ->.
  assert (Hty : Forall (Forall (fun x : tmsg => 0 <= snd x)) chs).
  { pose proof (channels_ok_read _ _ _ (tracks_typed _ Hcb) (eq_sym Hes)) as (_ & Hty & _). eapply Forall_impl; [|exact Hty]. intros l Hl. eapply Forall_impl; [|exact Hl]. intros x (_ & Hx & _). lia. }
  assert (Ht : candid ivs ([Reading] ++ map Extracting (seq 0 (length (tracks_of cbs)))) (fst (find_printing 0 ivs (repeat [] 8)))).
  { apply find_candid; [|reflexivity|reflexivity|].
    - intros c e' He. destruct (all_intervals_of _ _ Hty _ _ _ _ Hiv _ _ He) as (Hc & _). exact Hc.
    - split; [reflexivity|]. split; [|intros c' Hc'; lia]. intros k e' He. exfalso. clear - He. rewrite nth_repeat in He. exact He. }
  assert (Hall : exists l, nopos l /\ log = ([Reading] ++ map Extracting (seq 0 (length (tracks_of cbs)))) ++ fst (find_printing 0 ivs (repeat [] 8)) ++ l).
  { destruct (snd (find_printing 0 ivs (repeat [] 8))) as [base|].
    - exists (fst (pbind (merge_printing chs base order) (fun vs => silent (Ok (mk_handler vs tpb mx))))). split.
      + apply nopos_pbind; [apply nopos_merge|intros; apply nopos_silent].
      + injection H as <- _. rewrite <- app_assoc. reflexivity.
    - exists []. split; [intros ? []|]. injection H as <- _. rewrite <- app_assoc. reflexivity. }
  destruct Hall as (l & Hl & ->). apply candid_app.
  - apply candid_silent. intros vs' [H'|H']; [discriminate|]. exact (Hne vs' H').
  - apply candid_app; [exact Ht|]. apply candid_silent. exact Hl.
Qed.

Lemma read_possible b cbs complete order p vs q r : Forall callback_typed cbs -> file_ok (tracks_of cbs) ->
  (b = Debug \/ forall c l, stable_sort_of (file_order (tracks_of cbs) c) l -> balanced l) ->
  read_printing b true cbs complete order = (p ++ Possible vs :: q, r) ->
  exists c p0 mid, p = p0 ++ Searching c :: mid /\ (c < 16)%nat /\ (forall x, In x mid -> exists v e, x = Overlaps v e) /\
    StronglySorted lt vs /\ Forall (fun v => (v < 8)%nat) vs /\
    (forall v c' l l', In v vs -> (c' < c)%nat -> last_tried c' p = Some v ->
       stable_sort_of (file_order (tracks_of cbs) c) l -> stable_sort_of (file_order (tracks_of cbs) c') l' ->
       forall t, 0 <= t -> before_end l t -> before_end l' t -> ~ (0 < sounding l t /\ 0 < sounding l' t)) /\
    (forall v, (v < 8)%nat -> ~ In v vs -> (exists e, In (Overlaps v e) mid) \/
       exists w, (w < v)%nat /\ In w vs /\ forall c' l, (c' < c)%nat -> last_tried c' p = Some v \/ last_tried c' p = Some w ->
         stable_sort_of (file_order (tracks_of cbs) c') l -> forall t, 0 <= t -> before_end l t -> ~ 0 < sounding l t).
Proof.
  intros Hcb Hf Hb H. destruct (read_candid _ _ _ _ _ _ vs Hcb H) as (chs & ivs & mx & Hch & Hiv & Ht).
  { apply in_app_iff. right. left. reflexivity. }
  destruct (Ht p vs q eq_refl) as (c & p0 & mid & H1 & H2 & H3 & H4 & H5 & H6 & H7). cbn [app] in *.
  destruct (merge_ok b _ Hf) as (chs' & Hch' & HL & Hs). rewrite Hch in Hch'. injection Hch' as <-.
  pose proof (channels_ok_read _ _ _ (tracks_typed _ Hcb) Hch) as (_ & Hty & _).
  pose proof (channels_intervals _ _ _ _ _ (tracks_typed _ Hcb) Hch Hiv) as HF.
  pose proof (all_intervals_length _ _ _ _ _ Hiv) as HLi. cbn [fst] in HLi.
  assert (Hc16 : (c < 16)%nat) by lia.
  assert (Hget : forall k, (k < 16)%nat -> proper (nth k ivs []) /\ (forall t, 0 <= t -> before_end (nth k chs []) t -> (sounds (nth k ivs []) t <-> 0 < sounding (nth k chs []) t))).
  { intros k Hk. destruct (forall2_nth _ _ _ k (nth k chs []) HF) as (iv & Ei & Hpr & Hex); [apply nth_error_nth'; lia|].
    rewrite (nth_error_nth _ _ [] Ei). split; [exact Hpr|]. apply Hex. destruct Hb as [->|Hb]; [left; reflexivity|right; apply (Hb k), Hs]. }
  exists c, p0, mid. split; [exact H1|]. split; [exact Hc16|]. split; [exact H3|]. split; [exact H4|]. split; [exact H5|]. split.
  - intros v c' l l' Hv Hc' Hl Sl Sl' t T0 B1 B2 [S1 S2].
    rewrite (stable_sort_unique _ _ _ Sl (Hs c)) in *. rewrite (stable_sort_unique _ _ _ Sl' (Hs c')) in *.
    destruct (Hget c Hc16) as (_ & X1). destruct (Hget c' ltac:(lia)) as (_ & X2).
    apply (X1 t T0 B1) in S1. apply (X2 t T0 B2) in S2. destruct S1 as (a & Ha & Ia). destruct S2 as (e & He & Ie).
    pose proof (H6 v c' a e Hv Hc' Hl Ha He) as Ho. unfold overlaps in Ho. lia.
  - intros v Hv Hnv. destruct (H7 v Hv Hnv) as [He|(w & W1 & W2 & W3)]; [left; exact He|right]. exists w. split; [exact W1|]. split; [exact W2|].
    intros c' l Hc' Hl Sl t T0 B S. rewrite (stable_sort_unique _ _ _ Sl (Hs c')) in *. destruct (Hget c' ltac:(lia)) as (_ & X2).
    apply (X2 t T0 B) in S. rewrite (W3 c' Hc' Hl) in S. destruct S as (e & [] & _).
Qed.
