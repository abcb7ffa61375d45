(** FrameProofs.v: framing of written tracks (C47). *)
From Coq Require Import ZArith List Bool Lia ZifyBool ZifyNat.
From Verif Require Import Base Command Track Song SpecNspc ProofLib CodecProofs.

Lemma opens_a_part_true ps ti :
  (forall p, In p ps -> p <> []) ->
  exists r, opens_a_part ps ti = Ok r /\ (r = true <-> exists rest, In (ti :: rest) ps).
Proof.
  induction ps as [|p ps IH]; intros H.
  - exists false. split; [reflexivity|]. split; [discriminate|]. intros (rest & []).
  - destruct p as [|t0 p]; [exfalso; apply (H []); [left|]; reflexivity|].
    cbn [opens_a_part]. destruct (Nat.eqb t0 ti) eqn:E.
    + apply Nat.eqb_eq in E; subst t0. exists true. split; [reflexivity|].
      split; auto. intros _. exists p. left; reflexivity.
    + destruct IH as (r & -> & Hr); [intros q Hq; apply H; right; auto|].
      exists r. split; [reflexivity|]. rewrite Hr. split.
      * intros (rest & Hi). exists rest. right; auto.
      * intros (rest & [Hi|Hi]); [|exists rest; auto]. injection Hi as -> ->.
        rewrite Nat.eqb_refl in E. discriminate.
Qed.

Lemma in_part_true ps ti :
  existsb (fun p => existsb (Nat.eqb ti) p) ps = true <-> exists p, In p ps /\ In ti p.
Proof.
  rewrite existsb_exists. split.
  - intros (p & Hp & Hx). apply existsb_exists in Hx. destruct Hx as (y & Hy & He).
    apply Nat.eqb_eq in He; subst y. eauto.
  - intros (p & Hp & Ht). exists p. split; auto. apply existsb_exists. exists ti.
    split; auto. apply Nat.eqb_refl.
Qed.

Definition frame_preamble (s : song) (ti : nat) (pre : list Z) : Prop :=
  ((exists rest, In (ti :: rest) (parts s)) -> pre = [0xfa; 0x19; 0xe5; 0xc8; 0xed; 0xc8]) /\
  ((forall rest, ~ In (ti :: rest) (parts s)) -> (exists p, In p (parts s) /\ In ti p) -> pre = [0xed; 0xc8]) /\
  ((forall p, In p (parts s) -> ~ In ti p) -> pre = []).

(** An empty part stops the writer unless an earlier part begins with the track. *)
Definition blocked (ps : list (list nat)) (ti : nat) : Prop :=
  exists qs rs, ps = qs ++ [] :: rs /\ forall rest, ~ In (ti :: rest) qs.
Lemma opens_a_part_cases ps ti :
  (exists r, opens_a_part ps ti = Ok r /\ (r = true <-> exists rest, In (ti :: rest) ps) /\ ~ blocked ps ti) \/
  opens_a_part ps ti = Panic PIndex /\ blocked ps ti.
Proof.
  induction ps as [|p ps IH].
  - left. exists false. split; [reflexivity|]. split; [split; [discriminate|intros (rest & [])]|]. intros ([|q qs] & rs & E & _); discriminate.
  - destruct p as [|t0 p]; [right; split; [reflexivity|]; exists [], ps; split; [reflexivity|intros rest []]|].
    cbn [opens_a_part]. destruct (Nat.eqb t0 ti) eqn:E.
    + apply Nat.eqb_eq in E; subst t0. left. exists true. split; [reflexivity|]. split; [split; auto; intros _; exists p; left; reflexivity|].
      intros ([|q qs] & rs & E & H); [discriminate|]. injection E as <- _. apply (H p). left. reflexivity.
    + assert (Hn : t0 <> ti) by (intros ->; rewrite Nat.eqb_refl in E; discriminate).
      destruct IH as [(r & -> & Hr & Hb)|(-> & qs & rs & -> & H)].
      * left. exists r. split; [reflexivity|]. split.
        -- rewrite Hr. split; [intros (rest & Hi); exists rest; right; auto|]. intros (rest & [Hi|Hi]); [|exists rest; auto]. injection Hi as Hi _. contradiction.
        -- intros ([|q qs] & rs & E2 & H); [discriminate|]. injection E2 as <- ->. apply Hb. exists qs, rs. split; [reflexivity|]. intros rest Hi. apply (H rest). right. exact Hi.
      * right. split; [reflexivity|]. exists ((t0 :: p) :: qs), rs. split; [reflexivity|]. intros rest [Hi|Hi]; [injection Hi as Hi _; contradiction|apply (H rest Hi)].
Qed.
Lemma no_empty_part ps ti : (forall p, In p ps -> p <> []) -> ~ blocked ps ti.
Proof. intros H (qs & rs & -> & _). apply (H []); [apply in_or_app; right; left|]; reflexivity. Qed.
Lemma write_track_blocked s out ti loops tr : nth_error (tracks s) ti = Some tr -> tr <> [] ->
  (write_track s out ti loops = Panic PIndex <-> blocked (parts s) ti).
Proof.
  intros Ht Hne. unfold write_track. rewrite Ht. cbn [or_panic bind]. destruct tr as [|c tr]; [congruence|].
  destruct (opens_a_part_cases (parts s) ti) as [(r & -> & _ & Hb)|(-> & Hb)]; cbn [bind]; [|tauto]. destruct (track_write _ _ _) as [o l]. split; [discriminate|contradiction].
Qed.
Lemma write_track_frame_any s out ti loops tr :
  nth_error (tracks s) ti = Some tr -> tr <> [] -> ~ blocked (parts s) ti ->
  exists pre loops',
    write_track s out ti loops = Ok (out ++ pre ++ fst (track_write tr [] []) ++ [0x00], loops') /\
    loops' = snd (track_write tr (out ++ pre) loops) /\
    frame_preamble s ti pre.
Proof.
  intros Ht Hne Hp. unfold write_track. rewrite Ht. cbn [or_panic bind].
  destruct (opens_a_part_cases (parts s) ti) as [(r & Hr & Hiff & _)|(_ & Hb)]; [|contradiction].
  destruct tr as [|c tr]; [congruence|]. rewrite Hr. cbn [bind].
  unfold track_write. rewrite !track_write_from_eq. cbn [fst snd].
  set (body := list_bytes (c :: tr) 0xff None).
  destruct r.
  - exists PREAMBLE_TRACK_0. eexists. split; [|split; [|split; [|split]]].
    + rewrite <- !app_assoc. reflexivity.
    + rewrite track_write_from_eq. reflexivity.
    + reflexivity.
    + intros Hno. exfalso. destruct (proj1 Hiff eq_refl) as (rest & Hi). eapply Hno; eauto.
    + intros Hno. exfalso. destruct (proj1 Hiff eq_refl) as (rest & Hi). eapply Hno; eauto. left; auto.
  - assert (Hno : forall rest, ~ In (ti :: rest) (parts s)).
    { intros rest Hi. assert (false = true) by (apply Hiff; eauto). discriminate. }
    destruct (existsb _ (parts s)) eqn:E.
    + exists PREAMBLE_OTHER_TRACK. eexists. split; [|split; [|split; [|split]]].
      * rewrite <- !app_assoc. reflexivity.
      * rewrite track_write_from_eq. reflexivity.
      * intros (rest & Hi). exfalso; eapply Hno; eauto.
      * reflexivity.
      * intros Hn. exfalso. apply in_part_true in E. destruct E as (p & H1 & H2). eapply Hn; eauto.
    + exists []. eexists. split; [|split; [|split; [|split]]].
      * rewrite <- !app_assoc. reflexivity.
      * rewrite track_write_from_eq. rewrite app_nil_r. reflexivity.
      * intros (rest & Hi). exfalso; eapply Hno; eauto.
      * intros _ Hi. apply in_part_true in Hi. congruence.
      * reflexivity.
Qed.

Lemma write_track_frame s out ti loops tr :
  nth_error (tracks s) ti = Some tr -> tr <> [] ->
  (forall p, In p (parts s) -> p <> []) ->
  exists pre loops',
    write_track s out ti loops = Ok (out ++ pre ++ fst (track_write tr [] []) ++ [0x00], loops') /\
    loops' = snd (track_write tr (out ++ pre) loops) /\
    frame_preamble s ti pre.
Proof. intros Ht Hne Hp. apply write_track_frame_any; [exact Ht|exact Hne|apply no_empty_part; exact Hp]. Qed.

Lemma write_track_empty s out ti loops :
  nth_error (tracks s) ti = Some [] -> write_track s out ti loops = Ok (out, loops).
Proof. intros H. unfold write_track. rewrite H. reflexivity. Qed.
Lemma write_track_absent s out ti loops :
  nth_error (tracks s) ti = None -> write_track s out ti loops = Panic PIndex.
Proof. intros H. unfold write_track. rewrite H. reflexivity. Qed.

(** The framed bytes, played. *)
Lemma play_more fuel bytes dur vs r : play fuel bytes dur vs = Some r -> play (S fuel) bytes dur vs = Some r.
Proof.
  revert bytes dur vs r; induction fuel as [|fuel IH]; intros bytes dur vs r; [discriminate|].
  cbn [play]. destruct (decode_token bytes) as [[t rest]|]; [|discriminate].
  destruct t as [|d [v|]|n| | |n|op ps]; auto; try apply IH.
  all: destruct (play fuel rest dur vs) as [[es r']|] eqn:E; try discriminate;
    intros H; apply IH in E; cbn [play] in E; rewrite E; exact H.
Qed.
Lemma play_more_le n m bytes dur vs r :
  (n <= m)%nat -> play n bytes dur vs = Some r -> play m bytes dur vs = Some r.
Proof. induction 1; auto. intros. apply play_more; auto. Qed.

Lemma play_control op p bytes fuel es r :
  nth_error param_counts (Z.to_nat (op - 0xe0)) = Some 1%nat -> 0xe0 <= op ->
  play fuel bytes None None = Some (es, r) ->
  play (S fuel) (op :: p :: bytes) None None = Some (mk_event (TControl op [p]) None None :: es, r).
Proof.
  intros Hn Hop H. cbn [play decode_token].
  destruct (op =? 0) eqn:E1; [lia|]. destruct (op <? 0x80) eqn:E2; [lia|].
  destruct (op <? 0xc8) eqn:E3; [lia|]. destruct (op =? 0xc8) eqn:E4; [lia|].
  destruct (op =? 0xc9) eqn:E5; [lia|]. destruct (op <? 0xe0) eqn:E6; [lia|].
  rewrite Hn. cbn [length Nat.leb firstn skipn]. rewrite H. reflexivity.
Qed.

Lemma framed_plays s out ti loops tr rest :
  nth_error (tracks s) ti = Some tr -> tr <> [] ->
  ~ blocked (parts s) ti -> well_formed tr ->
  exists pre_cmds bytes loops',
    write_track s out ti loops = Ok (out ++ bytes, loops') /\
    play_stream (bytes ++ rest) = Some (control_events pre_cmds ++ prescribed tr None None, rest) /\
    ((exists q, In (ti :: q) (parts s)) -> pre_cmds = [(0xfa, [0x19]); (0xe5, [0xc8]); (0xed, [0xc8])]) /\
    ((forall q, ~ In (ti :: q) (parts s)) -> (exists p, In p (parts s) /\ In ti p) -> pre_cmds = [(0xed, [0xc8])]) /\
    ((forall p, In p (parts s) -> ~ In ti p) -> pre_cmds = []).
Proof.
  intros Ht Hne Hp Hwf.
  destruct (write_track_frame_any s out ti loops tr Ht Hne Hp) as (pre & loops' & Hw & _ & H1 & H2 & H3).
  assert (Hbody := track_write_plays tr rest Hwf). unfold play_stream in Hbody.
  set (body := fst (track_write tr [] [])) in *.
  assert (Hcase : (pre = PREAMBLE_TRACK_0) \/ pre = PREAMBLE_OTHER_TRACK \/ pre = []).
  { destruct (opens_a_part_cases (parts s) ti) as [([|] & _ & Hiff & _)|(_ & Hb)]; [| |contradiction].
    - left. apply H1. apply Hiff; reflexivity.
    - destruct (existsb (fun p => existsb (Nat.eqb ti) p) (parts s)) eqn:E.
      + right; left. apply H2; [|apply in_part_true; auto].
        intros q Hi. assert (false = true) by (apply Hiff; eauto). discriminate.
      + right; right. apply H3. intros p Hi Hj.
        assert (existsb (fun p => existsb (Nat.eqb ti) p) (parts s) = true) by (apply in_part_true; eauto).
        congruence. }
  assert (Hlen : length (body ++ 0 :: rest) = length ((body ++ [0]) ++ rest))
    by (rewrite <- app_assoc; reflexivity).
  destruct Hcase as [E|[E|E]].
  - exists [(0xfa, [0x19]); (0xe5, [0xc8]); (0xed, [0xc8])].
    exists (pre ++ body ++ [0]), loops'. split; [exact Hw|]. split.
    + rewrite E. unfold play_stream, PREAMBLE_TRACK_0.
      rewrite <- !app_assoc. cbn [app length].
      eapply play_more_le with (n := (3 + S (length (body ++ 0%Z :: rest)))%nat); [lia|].
      cbn [Nat.add control_events map app fst snd].
      do 3 (apply play_control; [reflexivity|lia|]). exact Hbody.
    + rewrite E in H1, H2, H3. split; [|split]; [intros Ha|intros Ha Hb|intros Ha]; try reflexivity;
        first [specialize (H1 Ha); discriminate|specialize (H2 Ha Hb); discriminate|specialize (H3 Ha); discriminate].
  - exists [(0xed, [0xc8])].
    exists (pre ++ body ++ [0]), loops'. split; [exact Hw|]. split.
    + rewrite E. unfold play_stream, PREAMBLE_OTHER_TRACK.
      rewrite <- !app_assoc. cbn [app length].
      eapply play_more_le with (n := (1 + S (length (body ++ 0%Z :: rest)))%nat); [lia|].
      cbn [Nat.add control_events map app fst snd].
      apply play_control; [reflexivity|lia|]. exact Hbody.
    + rewrite E in H1, H2, H3. split; [|split]; [intros Ha|intros Ha Hb|intros Ha]; try reflexivity;
        first [specialize (H1 Ha); discriminate|specialize (H2 Ha Hb); discriminate|specialize (H3 Ha); discriminate].
  - exists []. exists (pre ++ body ++ [0]), loops'. split; [exact Hw|]. split.
    + rewrite E. unfold play_stream. cbn [control_events map app]. rewrite <- !app_assoc. exact Hbody.
    + rewrite E in H1, H2, H3. split; [|split]; [intros Ha|intros Ha Hb|intros Ha]; try reflexivity;
        first [specialize (H1 Ha); discriminate|specialize (H2 Ha Hb); discriminate|specialize (H3 Ha); discriminate].
Qed.
