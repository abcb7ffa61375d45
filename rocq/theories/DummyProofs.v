(** DummyProofs.v: what a build writes does not depend on what the ROM held before (C59, C75). *)
From Coq Require Import ZArith List Bool Lia String.
From Verif Require Import Base ProofLib F32 Messages Command Track SeqTree Song Paths Manifest Midi Json Cli SpecMidi SpecNotes SpecVoices SpecRom SpecBank Run SpecRun SpecCommand SpecSuccess SpecRendered
  RomLib RomBanks RomFinal RomTwice RunProofs CommandProofs RomSuccess RenderProofs.
From Verif Require Rom.
Import ListNotations.
Open Scope Z_scope.
Open Scope list_scope.

(** One bank. *)
Lemma bank_anywhere b verbose bk r q L fa first conv r' : is_image r -> is_image q -> length q = length r -> layout_ok r L -> layout_ok q L ->
  Rom.write_bank b verbose bk r (lo_addr L) fa first conv = Ok r' ->
  exists q', Rom.write_bank b verbose bk q (lo_addr L) fa first conv = Ok q' /\ same_changes r r' q q'.
Proof.
  intros Hr Hq HL HLr HLq H. pose proof (lk_in _ _ HLr) as A3. pose proof (lk_in _ _ HLq) as B3.
  assert (HFB : Rom.find_blocks b q (lo_addr L) = Rom.find_blocks b r (lo_addr L)).
  { rewrite (find_blocks_found b _ _ _ _ _ _ Hr (layout_pointers _ _ HLr) A3), (find_blocks_found b _ _ _ _ _ _ Hq (layout_pointers _ _ HLq) B3). reflexivity. }
  exact (bank_moves _ _ _ _ _ _ _ _ _ _ HL HFB H).
Qed.
Lemma bank_dummy b verbose bk r d Ls L fa first conv : is_image r -> Forall (layout_ok r) Ls -> Rom.fake_image b r (map lo_addr Ls) = Ok d -> In L Ls ->
  (forall r', Rom.write_bank b verbose bk r (lo_addr L) fa first conv = Ok r' ->
     exists d', Rom.write_bank b verbose bk d (lo_addr L) fa first conv = Ok d' /\ same_changes r r' d d') /\
  (forall d', Rom.write_bank b verbose bk d (lo_addr L) fa first conv = Ok d' ->
     exists r', Rom.write_bank b verbose bk r (lo_addr L) fa first conv = Ok r' /\ same_changes r r' d d').
Proof.
  intros Hr HLs HD HL. destruct (dummy_layouts b r d Ls Hr HLs HD) as (D1 & D2 & D3). rewrite Forall_forall in HLs, D3. split.
  - intros r' H. exact (bank_anywhere _ _ _ _ _ _ _ _ _ _ Hr D2 D1 (HLs L HL) (D3 L HL) H).
  - intros d' H. destruct (bank_anywhere _ _ _ _ _ _ _ _ _ _ D2 Hr (eq_sym D1) (D3 L HL) (HLs L HL) H) as (r' & H' & M1 & M2 & M3).
    exists r'. split; [exact H'|]. split; [exact M2|]. split; [exact M1|]. intros k. destruct (M3 k) as [E|[E1 E2]]; [left; now symmetry|right; auto].
Qed.

(** The command on another ROM with the same blocks. *)
Lemma built_elsewhere b t order order2 o o2 fl c rom f f' r m Ls q g' res n : built b t order o fl c rom f f' r m Ls ->
  (forall i, permutes (order2 i)) -> reads_elsewhere c rom m -> is_image q -> length q = length r -> Forall (layout_ok q) Ls ->
  os_open o2 rom = true -> os_rom o2 = Rom.Wrote n -> (length q <= n)%nat ->
  run b t order2 o2 fl c (store f rom q) = (res, g') ->
  res = Ok tt /\ exists r' q', f' rom = Some r' /\ g' rom = Some q' /\ same_changes r r' q q'.
Proof.
  intros HB Ho2 Hel Hq HL HLq Hop Hwr Hn H. destruct (rerun _ _ _ order2 _ _ _ _ _ _ _ _ _ HB Ho2 Hel) as (m' & sss & n' & r' & _ & Hr' & Hfit & Hn' & Hw & Hrun).
  rewrite (Hrun (store f rom q) q o2), Hop, Hwr in H.
  2:{ intros x Hx. apply store_other. exact Hx. }
  2:{ apply store_same. }
  apply good_write in Hw; [|exact Hn']. destruct Hw as [Hw _].
  destruct (banks_moves b _ _ _ 0%nat 0%nat m' Ls sss Hfit r q r' [] eq_refl eq_refl HL (bu_image _ _ _ _ _ _ _ _ _ _ _ _ HB) Hq (bu_layouts _ _ _ _ _ _ _ _ _ _ _ _ HB) HLq
    (bu_independent _ _ _ _ _ _ _ _ _ _ _ _ HB) Hw) as (q' & Hq' & M).
  cbn [app] in Hq'. unfold Rom.rom_write in H. rewrite Hq' in H. injection H as <- <-. split; [reflexivity|]. exists r', q'. split; [exact Hr'|]. split; [|exact M].
  rewrite store_same. destruct M as (M1 & M2 & _). unfold Rom.file_overwrite. rewrite firstn_all2 by lia. rewrite M2, skipn_all, app_nil_r. reflexivity.
Qed.
Lemma loaded_ext b conv conv' sds ss ls : (forall sd p, In sd sds -> Manifest.input sd = Some p -> conv' p (Manifest.tempo_factor sd) = conv p (Manifest.tempo_factor sd)) ->
  loaded b conv' sds ss ls -> loaded b conv sds ss ls.
Proof.
  intros H HL. revert H. induction HL as [|sd s l sds ss ls Hc Hr _ IH]; intros H; [constructor|]. constructor; [|exact Hr|].
  - destruct (Manifest.input sd) as [p|] eqn:E; [|exact Hc]. rewrite <- (H sd p (or_introl eq_refl) E). exact Hc.
  - apply IH. intros sd' p Hs. apply H. now right.
Qed.
Lemma built_any b t order o fl c rom f f' r m Ls q : built b t order o fl c rom f f' r m Ls -> reads_elsewhere c rom m -> is_image q -> length q = length r -> Forall (layout_ok q) Ls ->
  exists g' r' q', built b t order o fl c rom (store f rom q) g' q m Ls /\ f' rom = Some r' /\ g' rom = Some q' /\ same_changes r r' q q'.
Proof.
  intros HB Hel Hq HL HLq. pose proof HB as [Ho Hc Hr Hi Hm Hal HLr HI HT HR HS (n & Hos & Hn) H]. pose proof Hel as [Hman Hin].
  destruct (run b t order o fl c (store f rom q)) as [res g'] eqn:E.
  assert (Hop : os_open o rom = true).
  { destruct (command_rom _ _ _ _ _ _ _ _ _ _ _ _ Hc Hr Hal Hm H) as (m' & r' & _ & _ & Hw). unfold Rom.rom_write in Hw. destruct (os_open o rom); [reflexivity|discriminate]. }
  destruct (built_elsewhere _ _ _ order _ o _ _ _ _ _ _ _ _ q g' res n HB Ho Hel Hq HL HLq Hop Hos ltac:(lia) E) as (-> & r' & q' & X1 & X2 & X3).
  exists g', r', q'. split; [|auto]. constructor; try assumption.
  - apply store_same.
  - destruct Hm as [M1 M2]. split; [exact M1|]. intros bank name sd Hs. specialize (M2 bank name sd Hs). destruct c; try exact M2; cbn [wanted builds_rom] in *.
    destruct M2 as (content & v & dir & A & B). exists content, v, dir. split; [|exact B]. subst. rewrite store_other; [exact A|]. eapply Hman. reflexivity.
  - rewrite Forall_forall in *. intros bk Hbk. specialize (HR bk Hbk). rewrite Forall_forall in *. intros sd Hsd p Hp. specialize (HR sd Hsd p Hp).
    assert (Hpr : p <> rom) by (eapply Hin; eassumption). destruct HR as [R1 R2]. split.
    + intros Hmid. destruct (R1 Hmid) as (content & cbs & complete & A & B). exists content, cbs, complete. rewrite store_other by exact Hpr. auto.
    + intros Hmid s part (content & v & A & B). rewrite store_other in A by exact Hpr. apply R2; [exact Hmid|]. exists content, v. auto.
  - intros k bk L fa ss ls Hk HLk Hfa Hld. apply (HS k bk L fa ss ls Hk HLk Hfa). eapply loaded_ext; [|exact Hld].
    intros sd p Hsd Hp. apply conv_same with (rom := rom); try exact Ho; [intros x Hx; apply store_other; exact Hx|]. apply nth_error_In in Hk. eapply Hin; eassumption.
  - exists n. split; [exact Hos|lia].
Qed.
Lemma built_on_dummy b t order o fl c rom f f' r m Ls d : built b t order o fl c rom f f' r m Ls -> reads_elsewhere c rom m -> Rom.fake_image b r (map lo_addr Ls) = Ok d ->
  exists g' r' d', built b t order o fl c rom (store f rom d) g' d m Ls /\ f' rom = Some r' /\ g' rom = Some d' /\ same_changes r r' d d'.
Proof.
  intros HB Hel HD.
  destruct (dummy_layouts b r d Ls (bu_image _ _ _ _ _ _ _ _ _ _ _ _ HB) (bu_layouts _ _ _ _ _ _ _ _ _ _ _ _ HB) HD) as (D1 & D2 & D3).
  eapply built_any; eassumption.
Qed.
Lemma built_from_dummy b t order o fl c rom f f' r m Ls d : built b t order o fl c rom f f' d m Ls -> reads_elsewhere c rom m ->
  is_image r -> Forall (layout_ok r) Ls -> Rom.fake_image b r (map lo_addr Ls) = Ok d ->
  exists g' d' r', built b t order o fl c rom (store f rom r) g' r m Ls /\ f' rom = Some d' /\ g' rom = Some r' /\ same_changes d d' r r'.
Proof.
  intros HB Hel Hr HLr HD. destruct (dummy_layouts b r d Ls Hr HLr HD) as (D1 & D2 & D3). eapply built_any; try eassumption. now symmetry.
Qed.
