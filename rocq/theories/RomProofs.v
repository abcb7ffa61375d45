(** RomProofs.v: what writing one song does to the image (C33-C36). *)
From Coq Require Import ZArith List Bool Lia ZifyBool ZifyNat Sorted.
From Verif Require Import Base Command Track Song Rom SpecNspc SpecRom ProofLib CodecProofs RomLib.
Ltac Zify.zify_post_hook ::= Z.div_mod_to_equations.
Open Scope Z_scope.

(** ** Loop references of a track lie inside its bytes and do not overlap *)
Definition gap (x y : nat) : Prop := (x + 2 <= y)%nat.
Lemma head_cmd_len pc dur vs : length (pcmd_bytes pc dur vs) = (length (head_bytes pc dur vs) + length (cmd_bytes (cmd pc)))%nat.
Proof. unfold pcmd_bytes. apply app_length. Qed.
Lemma list_refs_pos l : forall dur vs pos,
  Forall (fun x => (pos < ref_pos x /\ ref_pos x + 2 <= pos + length (list_bytes l dur vs))%nat) (list_refs l dur vs pos) /\
  StronglySorted gap (map ref_pos (list_refs l dur vs pos)).
Proof.
  induction l as [|pc l IH]; intros dur vs pos; cbn [list_refs list_bytes]; [split; constructor|].
  rewrite app_length.
  destruct (IH (fst (dur_part pc dur)) (fst (vs_part pc vs)) (pos + length (pcmd_bytes pc dur vs))%nat) as [HF HS].
  pose proof (head_cmd_len pc dur vs) as HL.
  assert (HF' : Forall (fun x => (pos < ref_pos x /\ ref_pos x + 2 <= pos + (length (pcmd_bytes pc dur vs) +
      length (list_bytes l (fst (dur_part pc dur)) (fst (vs_part pc vs)))))%nat)
      (list_refs l (fst (dur_part pc dur)) (fst (vs_part pc vs)) (pos + length (pcmd_bytes pc dur vs)))).
  { eapply Forall_impl; [|exact HF]. cbv beta. intros x Hx. lia. }
  destruct (cmd pc) eqn:Ec; cbn [cmd_ref app]; try (split; assumption).
  match type of HL with _ = (_ + ?x)%nat => change x with 4%nat in HL end. cbn [ref_pos map]. split.
  - constructor; [cbn; lia|exact HF'].
  - constructor; [exact HS|]. apply Forall_forall. intros y Hy. apply in_map_iff in Hy. destruct Hy as (x & <- & Hx).
    rewrite Forall_forall in HF. specialize (HF x Hx). unfold gap. lia.
Qed.
Lemma write_track_refs s i data refs : write_track s [] i [] = Ok (data, refs) ->
  Forall (fun x => (ref_pos x + 2 <= length data)%nat) refs /\ StronglySorted gap (map ref_pos refs) /\
  (data = [] -> nth_error (tracks s) i = Some [] /\ refs = []).
Proof.
  intros H. unfold write_track in H. inv_bind H. apply or_panic_ok in Ha. destruct a as [|c tr].
  - injection H as <- <-. repeat split; auto; constructor.
  - inv_bind H. cbn zeta in H. revert H.
    set (out1 := if a then [] ++ PREAMBLE_TRACK_0 else _). intros H. unfold track_write in H. rewrite track_write_from_eq in H.
    injection H as <- <-. cbn [app]. destruct (list_refs_pos (c :: tr) 255 None (length out1)) as [HF HS].
    split; [|split].
    + eapply Forall_impl; [|exact HF]. cbv beta. intros x Hx. cbn [list_bytes] in Hx. rewrite app_length in Hx. rewrite !app_length. cbn [length]. lia.
    + exact HS.
    + intros Hnil. apply app_eq_nil in Hnil. destruct Hnil; discriminate.
Qed.

(** ** Layout *)
Definition good_blocks (base ovf : tblock) (n : Z) : Prop :=
  0 <= tb_start base /\ 0 <= tb_len base /\ tb_start ovf = payload_end base /\ 0 <= tb_len ovf /\ payload_end ovf <= n /\
  tb_aram base = 0xd000 /\ tb_aram ovf <> 0xd000.
Definition in_data (base ovf : tblock) (x : Z) : Prop := in_payload base x \/ in_payload ovf x.
(** ARAM address of a file address in one of the two payloads. *)
Definition aram_of (base ovf : tblock) (x : Z) : Z :=
  if x <? payload_end base then tb_aram base + (x - payload base) else tb_aram ovf + (x - payload ovf).

(** Where the next item goes: [p] is the next free address. *)
Inductive cursor (base ovf : tblock) : Z -> Z -> Z -> Z -> Z -> Prop :=
| cursor_base : forall p, payload base <= p <= payload_end base ->
    cursor base ovf p (payload base) (tb_len base) (tb_aram base) (p - payload base)
| cursor_ovf : forall p, payload ovf <= p <= payload_end ovf ->
    cursor base ovf p (payload ovf) (tb_len ovf) (tb_aram ovf) (p - payload ovf).

Fixpoint places (base ovf : tblock) (p : Z) (l : list (list Z * list call_loop_ref)) : list Z :=
  match l with
  | [] => []
  | d :: l' => place base ovf p (data_len d) :: places base ovf (place base ovf p (data_len d) + data_len d) l'
  end.
Definition addr_of (base ovf : tblock) (q : Z) (d : list Z * list call_loop_ref) : Z :=
  match fst d with [] => 0 | _ => aram_of base ovf q end.
Fixpoint addrs_of (base ovf : tblock) (qs : list Z) (l : list (list Z * list call_loop_ref)) : list Z :=
  match qs, l with
  | q :: qs', d :: l' => addr_of base ovf q d :: addrs_of base ovf qs' l'
  | _, _ => []
  end.
Fixpoint loops_at (qs : list Z) (l : list (list Z * list call_loop_ref)) : list rom_ref :=
  match qs, l with
  | q :: qs', d :: l' => map (fun x => mk_rom_ref (target_track x) q (ref_pos x)) (snd d) ++ loops_at qs' l'
  | _, _ => []
  end.
Lemma places_length base ovf l : forall p, length (places base ovf p l) = length l.
Proof. induction l as [|d l IH]; intros p; cbn [places length]; auto. Qed.
Lemma addrs_length base ovf l : forall qs, length qs = length l -> length (addrs_of base ovf qs l) = length l.
Proof. induction l as [|d l IH]; intros [|q qs] H; cbn in *; try discriminate; auto. Qed.

Definition free (base ovf : tblock) (p e x : Z) : Prop := p <= x < e /\ in_data base ovf x.

(** Placing an item of [n] bytes that fits. *)
Definition fits (base ovf : tblock) (p n : Z) : Prop :=
  let q := place base ovf p n in p <= q /\ forall x, q <= x < q + n -> in_data base ovf x.
Lemma place_base base ovf p n : payload base <= p <= payload_end base -> p + n <= payload_end base -> place base ovf p n = p.
Proof. unfold place. intros. destruct (_ && _) eqn:E; lia. Qed.
Lemma place_switch base ovf p n : p <= payload_end base -> payload_end base < p + n -> place base ovf p n = payload ovf.
Proof. unfold place. intros. destruct (_ && _) eqn:E; lia. Qed.
Lemma place_ovf base ovf p n : payload_end base < p -> place base ovf p n = p.
Proof. unfold place. intros. destruct (_ && _) eqn:E; lia. Qed.

Definition kcursor (base ovf : tblock) (p : Z) (st : kstate) : Prop :=
  cursor base ovf p (ks_rom_addr st) (ks_chunk_length st) (ks_aram_base st) (track_data_offset st).

Lemma one_track b verbose base ovf n s o st i st' p data refs :
  good_blocks base ovf n -> kcursor base ovf p st -> size (ks_rom st) = n ->
  write_track s [] i [] = Ok (data, refs) ->
  (place base ovf p (Z.of_nat (length data)) = p \/ refs = [] /\ Z.of_nat (length data) <= tb_len ovf) ->
  write_one_track b verbose (blocks_of base ovf) o s st i = Ok st' ->
  let q := place base ovf p (Z.of_nat (length data)) in
  p <= q /\ (forall x, q <= x < q + Z.of_nat (length data) -> in_data base ovf x) /\
  kcursor base ovf (q + Z.of_nat (length data)) st' /\
  same_outside (fun x => q <= x < q + Z.of_nat (length data)) (ks_rom st) (ks_rom st') /\
  (forall j, (j < length data)%nat -> byte (ks_rom st') (q + Z.of_nat j) = nth j data 0) /\
  track_addrs st' = track_addrs st ++ [addr_of base ovf q (data, refs)] /\
  call_loops st' = call_loops st ++ map (fun x => mk_rom_ref (target_track x) q (ref_pos x)) refs.
Proof.
  intros (G1 & G2 & G3 & G4 & G5 & G6 & G7) Hk Hn Hw Hstay H q. unfold write_one_track in H. cbn zeta in H.
  rewrite Hw in H. cbn [bind] in H. cbn zeta in H. set (len := Z.of_nat (length data)) in *.
  destruct (write_track_refs _ _ _ _ Hw) as (_ & _ & Hnil).
  (* the state after a possible switch *)
  assert (Hsw : exists st1 pre cur, (if ks_chunk_length st <? track_data_offset st + len
      then if ks_aram_base st =? aram_overflow_base (blocks_of base ovf) then Err EDoesNotFit
        else let* _ := verbose_sub b verbose (ks_chunk_length st) o in
          Ok (mk_kstate (ks_rom st) 0 (overflow_chunk_addr (blocks_of base ovf)) (overflow_chunk_len (blocks_of base ovf))
              (aram_overflow_base (blocks_of base ovf)) (track_addrs st) (call_loops st), refs, [])
      else Ok (st, [], refs)) = Ok (st1, pre, cur) /\
      kcursor base ovf q st1 /\ p <= q /\ q + len <= (if q <=? payload_end base then payload_end base else payload_end ovf) /\
      (q <= payload_end base -> payload base <= q) /\ (payload_end base < q -> payload ovf <= q) /\
      ks_rom st1 = ks_rom st /\ track_addrs st1 = track_addrs st /\ call_loops st1 = call_loops st /\
      pre = [] /\ cur = refs).
  { inv_bind H. destruct a as [[st1 pre] cur]. exists st1, pre, cur. split; [exact Ha|]. clear H. revert Ha. unfold q.
    unfold kcursor in Hk. unfold payload, payload_end in *.
    inversion Hk as [p' Hp E1 E2 E3 E4|p' Hp E1 E2 E3 E4]; subst p'; unfold payload, payload_end in *.
    - destruct (Z.ltb_spec (tb_len base) (p - (tb_start base + 4) + len)) as [Hlt|Hle].
      + rewrite (place_switch base ovf p len) by (unfold payload_end; lia). cbn [aram_overflow_base blocks_of]. rewrite G6.
        destruct (Z.eqb_spec 53248 (tb_aram ovf)); [congruence|]. intros Ha. inv_bind Ha. injection Ha as <- <- <-.
        rewrite (place_switch base ovf p len) in Hstay by (unfold payload_end; lia).
        destruct Hstay as [Hstay|[-> Hfit]]; [unfold payload in *; lia|].
        cbn [ks_rom track_addrs call_loops blocks_of overflow_chunk_addr overflow_chunk_len aram_overflow_base].
        split.
        { unfold kcursor. cbn. replace 0 with (payload ovf - payload ovf) by lia. apply cursor_ovf. unfold payload, payload_end. lia. }
        unfold payload. destruct (Z.leb_spec (tb_start ovf + 4) (tb_start base + 4 + tb_len base)); repeat split; lia.
      + rewrite (place_base base ovf p len) by (unfold payload, payload_end; lia). intros [= <- <- <-].
        split; [exact Hk|]. destruct (Z.leb_spec p (tb_start base + 4 + tb_len base)); repeat split; lia.
    - destruct (Z.ltb_spec (tb_len ovf) (p - (tb_start ovf + 4) + len)) as [Hlt|Hle].
      + cbn [aram_overflow_base blocks_of]. rewrite Z.eqb_refl. discriminate.
      + rewrite (place_ovf base ovf p len) by (unfold payload_end; lia). intros [= <- <- <-].
        split; [exact Hk|]. destruct (Z.leb_spec p (tb_start base + 4 + tb_len base)); repeat split; lia. }
  destruct Hsw as (st1 & pre & cur & Esw & Hk1 & Hpq & Hend & Hb0 & Ho0 & Er & Et & Ec & Epre & Ecur). subst pre cur.
  rewrite Esw in H. clear Esw. cbn [bind] in H. cbn zeta in H.
  assert (Hin : forall x, q <= x < q + len -> in_data base ovf x).
  { intros x Hx. unfold in_data, in_payload, payload, payload_end in *. destruct (Z.leb_spec q (tb_start base + 4 + tb_len base)); [left|right]; lia. }
  assert (Habs : ks_rom_addr st1 + track_data_offset st1 = q).
  { inversion Hk1; subst; lia. }
  split; [exact Hpq|]. split; [exact Hin|].
  destruct (Z.ltb_spec 0 len) as [Hpos|Hz].
  - inv_bind H. rewrite Habs in *. assert (0 <= q) by (unfold payload, payload_end in *; destruct (Z.leb_spec q (tb_start base + 4 + tb_len base)); lia).
    destruct (splice_ok _ _ _ _ H0 Ha) as (_ & HL & Hout & Hdata). injection H as <-.
    cbn [ks_rom track_addrs call_loops].
    split.
    { unfold kcursor in *. cbn. clear - Hk1 Hend Habs Hb0 Ho0 Hpos G1 G2 G3 G4. revert Hk1 Habs. generalize (ks_rom_addr st1) (track_data_offset st1) (ks_chunk_length st1) (ks_aram_base st1).
      intros ra off cl ab Hc Habs.
      inversion Hc as [p' Hp E1 E2 E3 E4|p' Hp E1 E2 E3 E4]; subst.
      - replace (q - payload base + len) with (q + len - payload base) by lia. apply cursor_base. destruct (Z.leb_spec q (payload_end base)); lia.
      - replace (q - payload ovf + len) with (q + len - payload ovf) by lia. apply cursor_ovf.
        destruct (Z.leb_spec q (payload_end base)); unfold payload, payload_end in *; lia. }
    split.
    { split; [congruence|]. intros x Hx Hx'. rewrite Hout, Er; auto. }
    split; [exact Hdata|]. split; [|rewrite Ec; reflexivity].
    rewrite Et. f_equal. f_equal. unfold addr_of. cbn [fst]. destruct data as [|d0 data]; [cbn in len; lia|].
    unfold aram_of. unfold kcursor in Hk1. inversion Hk1 as [p' Hp E1 E2 E3 E4|p' Hp E1 E2 E3 E4]; subst p'.
    + destruct (Z.ltb_spec q (payload_end base)) as [?|Hge]; [lia|]. exfalso.
      destruct (Z.leb_spec q (payload_end base)); lia.
    + destruct (Z.ltb_spec q (payload_end base)) as [Hlt|?]; [|lia]. unfold payload, payload_end in *. lia.
  - assert (data = []) as -> by (destruct data; [reflexivity|cbn in len; lia]). destruct (Hnil eq_refl) as [_ ->].
    injection H as <-. cbn [ks_rom track_addrs call_loops length] in *. cbn in len.
    split; [replace (q + len) with q by (unfold len; lia); exact Hk1|]. split; [rewrite Er; apply same_outside_refl|].
    split; [intros j Hj; lia|]. split; [rewrite Et; reflexivity|rewrite Ec, app_nil_r; reflexivity].
Qed.

(** All tracks of a song. *)
Definition tracks_written (r : list Z) (qs : list Z) (l : list (list Z * list call_loop_ref)) : Prop :=
  forall k q d, nth_error qs k = Some q -> nth_error l k = Some d ->
  forall j, (j < length (fst d))%nat -> byte r (q + Z.of_nat j) = nth j (fst d) 0.
Definition places_ok (base ovf : tblock) (p e : Z) (qs : list Z) (l : list (list Z * list call_loop_ref)) : Prop :=
  forall k q d, nth_error qs k = Some q -> nth_error l k = Some d ->
  p <= q /\ q + data_len d <= e /\ forall x, q <= x < q + data_len d -> in_data base ovf x.

Lemma all_tracks b verbose base ovf n s o l : forall i st st' p,
  good_blocks base ovf n -> kcursor base ovf p st -> size (ks_rom st) = n ->
  (forall k d, nth_error l k = Some d -> write_track s [] (i + k) [] = Ok d) ->
  tracks_stay base ovf p l ->
  ofold (write_one_track b verbose (blocks_of base ovf) o s) (seq i (length l)) st = Ok st' ->
  let qs := places base ovf p l in let e := tracks_end base ovf p l in
  p <= e /\ kcursor base ovf e st' /\ same_outside (free base ovf p e) (ks_rom st) (ks_rom st') /\
  places_ok base ovf p e qs l /\ tracks_written (ks_rom st') qs l /\
  track_addrs st' = track_addrs st ++ addrs_of base ovf qs l /\
  call_loops st' = call_loops st ++ loops_at qs l.
Proof.
  induction l as [|[data refs] l IH]; intros i st st' p HG Hk Hn Hw Hstay H qs e.
  - injection H as <-. unfold qs, e. cbn [places tracks_end addrs_of loops_at]. rewrite !app_nil_r.
    split; [lia|]. split; [exact Hk|]. split; [apply same_outside_refl|]. split; [intros [|k] q d Hq; discriminate|].
    split; [intros [|k] q d Hq; discriminate|]. split; reflexivity.
  - cbn [length seq ofold] in H. inv_bind H. rename a into st1. cbn [tracks_stay] in Hstay. destruct Hstay as [Hs1 Hstay].
    pose proof (Hw O _ eq_refl) as Hw0. rewrite Nat.add_0_r in Hw0.
    unfold data_len in Hs1. cbn [fst snd] in Hs1.
    pose proof (one_track b verbose base ovf n s o st i st1 p data refs HG Hk Hn Hw0 Hs1 Ha) as (H1 & H2 & H3 & H4 & H5 & H6 & H7).
    unfold qs, e. cbn [places tracks_end]. change (data_len (data, refs)) with (Z.of_nat (length data)) in *.
    set (q := place base ovf p (Z.of_nat (length data))) in *.
    assert (Hn1 : size (ks_rom st1) = n) by (rewrite (same_size _ _ _ H4); exact Hn).
    destruct (IH (S i) st1 st' (q + Z.of_nat (length data)) HG H3 Hn1) as (J1 & J2 & J3 & J4 & J5 & J6 & J7).
    { intros k d Hd. replace (S i + k)%nat with (i + S k)%nat by lia. apply Hw. exact Hd. }
    { exact Hstay. }
    { exact H. }
    set (qs' := places base ovf (q + Z.of_nat (length data)) l) in *. set (e' := tracks_end base ovf (q + Z.of_nat (length data)) l) in *.
    assert (Hdat : 0 <= Z.of_nat (length data)) by lia.
    split; [lia|]. split; [exact J2|]. split; [|split; [|split; [|split]]].
    + eapply same_outside_trans.
      * eapply same_outside_weaken; [|exact H4]. cbv beta. intros x Hx Hin. unfold free. split; [lia|]. apply H2. exact Hin.
      * eapply same_outside_weaken; [|exact J3]. intros x Hx [Hin Hd]. unfold free. split; [lia|exact Hd].
    + intros [|k] q0 d Hq Hd; cbn in Hq, Hd.
      * injection Hq as <-. injection Hd as <-. unfold data_len. cbn [fst]. split; [lia|]. split; [lia|exact H2].
      * destruct (J4 k q0 d Hq Hd) as (K1 & K2 & K3). split; [lia|]. split; [lia|exact K3].
    + intros [|k] q0 d Hq Hd j Hj; cbn in Hq, Hd.
      * injection Hq as <-. injection Hd as <-. cbn [fst] in *. destruct J3 as [_ J3].
        assert (0 <= q) by (destruct HG as (G1 & G2 & G3 & _); unfold kcursor in Hk; inversion Hk; unfold payload, payload_end in *; lia).
        rewrite J3; [apply H5; exact Hj|lia|]. unfold free. lia.
      * eapply J5; eauto.
    + rewrite J6, H6, <- app_assoc. reflexivity.
    + rewrite J7, H7, <- app_assoc. reflexivity.
Qed.

(** ** Part table and loop operands *)
Definition bytes_hold (r : list Z) (a w : Z) : Prop := byte r a = w mod 256 /\ byte r (a + 1) = w / 256 mod 256.
Lemma two_writes r a w r' : 0 <= a -> 0 <= w -> (let '(h, l) := addr_to_bytes w in wr_all r [(a + 1, h); (a, l)]) = Ok r' ->
  same_outside (fun x => a <= x < a + 2) r r' /\ bytes_hold r' a w.
Proof.
  intros Ha Hw H. rewrite addr_to_bytes_eq in H by exact Hw. apply wr_all_ok in H; [|repeat constructor; cbn; lia].
  destruct H as (_ & HL & Hb). split.
  - split; [exact HL|]. intros x Hx Hout. rewrite Hb by exact Hx. apply last_write_none. repeat constructor; cbn; lia.
  - unfold bytes_hold. rewrite !Hb by lia. unfold last_write. cbn [fold_left fst snd].
    rewrite !Z.eqb_refl. destruct (Z.eqb_spec a (a + 1)); [lia|]. destruct (Z.eqb_spec (a + 1) a); [lia|]. split; reflexivity.
Qed.
Lemma bytes_hold_same P r r' a w : same_outside P r r' -> 0 <= a -> ~ P a -> ~ P (a + 1) -> bytes_hold r a w -> bytes_hold r' a w.
Proof. intros [_ H] Ha H1 H2 [E1 E2]. unfold bytes_hold. rewrite !H; auto; lia. Qed.

Lemma write_part_ok addrs part : Forall (fun x => 0 <= x) addrs -> forall r a r', 0 <= a -> write_part r a addrs part = Ok r' ->
  same_outside (fun x => a <= x < a + 2 * Z.of_nat (length part)) r r' /\
  forall k ti, nth_error part k = Some ti -> exists ta, nth_error addrs ti = Some ta /\ bytes_hold r' (a + 2 * Z.of_nat k) ta.
Proof.
  intros HA. induction part as [|ti part IH]; intros r a r' Ha H; cbn [write_part] in H.
  - injection H as <-. split; [apply same_outside_refl|]. intros [|k] ti; discriminate.
  - inv_bind H. rename a0 into ta. apply or_panic_ok in Ha0.
    assert (Hta : 0 <= ta) by (rewrite Forall_forall in HA; apply HA; eapply nth_error_In; eauto).
    destruct (addr_to_bytes ta) as [h l] eqn:Eb. inv_bind H. rename a0 into r1.
    assert (H1 : (let '(h, l) := addr_to_bytes ta in wr_all r [(a + 1, h); (a, l)]) = Ok r1) by (rewrite Eb; exact Ha1).
    destruct (two_writes _ _ _ _ Ha Hta H1) as [Hs1 Hb1].
    destruct (IH r1 (a + 2) r' ltac:(lia) H) as [Hs2 Hb2].
    cbn [length]. split.
    + eapply same_outside_trans.
      * eapply same_outside_weaken; [|exact Hs1]. cbv beta. intros; lia.
      * eapply same_outside_weaken; [|exact Hs2]. cbv beta. intros; lia.
    + intros [|k] ti' Hk; cbn [nth_error] in Hk.
      * injection Hk as <-. exists ta. split; [exact Ha0|]. replace (a + 2 * Z.of_nat 0) with a by lia.
        eapply bytes_hold_same; [exact Hs2|lia| | |exact Hb1]; cbv beta; lia.
      * destruct (Hb2 k ti' Hk) as (ta' & E1 & E2). exists ta'. split; [exact E1|].
        replace (a + 2 * Z.of_nat (S k)) with (a + 2 + 2 * Z.of_nat k) by lia. exact E2.
Qed.

Definition ref_addr (x : rom_ref) : Z := rr_chunk_base x + Z.of_nat (rr_ref_pos x).
Definition zgap (x y : Z) : Prop := x + 2 <= y.
Lemma patch_ok addrs refs : Forall (fun x => 0 <= x) addrs -> Forall (fun x => 0 <= ref_addr x) refs ->
  StronglySorted zgap (map ref_addr refs) ->
  forall r r', ofold (patch_loop addrs) refs r = Ok r' ->
  same_outside (fun y => exists x, In x refs /\ ref_addr x <= y < ref_addr x + 2) r r' /\
  forall x, In x refs -> exists ta, nth_error addrs (rr_target x) = Some ta /\ bytes_hold r' (ref_addr x) ta.
Proof.
  intros HA HF HS. induction refs as [|x refs IH]; intros r r' H; cbn [ofold] in H.
  - injection H as <-. split; [apply same_outside_refl|intros x []].
  - apply Forall_cons_iff in HF. destruct HF as [Hx HF]. cbn [map] in HS. inversion HS as [|? ? HS1 HS2]; subst.
    inv_bind H. rename a into r1. unfold patch_loop in Ha. cbv zeta in Ha. inv_bind Ha. rename a into ta. apply or_panic_ok in Ha0.
    assert (Hta : 0 <= ta) by (rewrite Forall_forall in HA; apply HA; eapply nth_error_In; eauto).
    change (rr_chunk_base x + Z.of_nat (rr_ref_pos x)) with (ref_addr x) in Ha.
    destruct (two_writes _ _ _ _ Hx Hta Ha) as [Hs1 Hb1]. destruct (IH HF HS1 r1 r' H) as [Hs2 Hb2].
    rewrite Forall_forall in HS2. split.
    + eapply same_outside_trans.
      * eapply same_outside_weaken; [|exact Hs1]. cbv beta. intros y _ Hy. exists x. split; [left; reflexivity|exact Hy].
      * eapply same_outside_weaken; [|exact Hs2]. cbv beta. intros y _ (z & Hz & Hy). exists z. split; [right; exact Hz|exact Hy].
    + intros z [<-|Hz]; [|apply Hb2; exact Hz]. exists ta. split; [exact Ha0|].
      assert (Hno : forall y, ref_addr x <= y < ref_addr x + 2 -> ~ exists z, In z refs /\ ref_addr z <= y < ref_addr z + 2).
      { intros y Hy (z & Hz & Hy'). specialize (HS2 (ref_addr z) (in_map ref_addr _ _ Hz)). unfold zgap in HS2. lia. }
      eapply bytes_hold_same; [exact Hs2|exact Hx|apply Hno; lia|apply Hno; lia|exact Hb1].
Qed.

(** The references of a song's tracks, by file address. *)
Lemma loops_at_in l : forall qs x, In x (loops_at qs l) ->
  exists k q d y, nth_error qs k = Some q /\ nth_error l k = Some d /\ In y (snd d) /\ x = mk_rom_ref (target_track y) q (ref_pos y).
Proof.
  induction l as [|d l IH]; intros [|q qs] x H; cbn [loops_at] in H; try contradiction.
  apply in_app_or in H. destruct H as [H|H].
  - apply in_map_iff in H. destruct H as (y & <- & Hy). exists O, q, d, y. auto.
  - destruct (IH qs x H) as (k & q' & d' & y & ? & ? & ? & ?). exists (S k), q', d', y. auto.
Qed.
Lemma loops_at_intro l : forall qs k q d y, nth_error qs k = Some q -> nth_error l k = Some d -> In y (snd d) ->
  In (mk_rom_ref (target_track y) q (ref_pos y)) (loops_at qs l).
Proof.
  induction l as [|d l IH]; intros [|q qs] [|k] q' d' y Hq Hd Hy; cbn in Hq, Hd; try discriminate; cbn [loops_at]; apply in_or_app.
  - injection Hq as <-. injection Hd as <-. left. apply in_map_iff. exists y. auto.
  - right. eapply IH; eauto.
Qed.

Definition refs_ok (d : list Z * list call_loop_ref) : Prop :=
  Forall (fun x => (ref_pos x + 2 <= length (fst d))%nat) (snd d) /\ StronglySorted gap (map ref_pos (snd d)).
Lemma place_ge base ovf p n : tb_start ovf = payload_end base -> p <= place base ovf p n.
Proof. unfold place, payload. intros. destruct (_ && _) eqn:E; lia. Qed.
Lemma loops_sorted base ovf l : tb_start ovf = payload_end base -> Forall refs_ok l -> forall p,
  Forall (fun x => p <= ref_addr x) (loops_at (places base ovf p l) l) /\
  StronglySorted zgap (map ref_addr (loops_at (places base ovf p l) l)).
Proof.
  intros HG HF. induction HF as [|d l [Hd1 Hd2] _ IH]; intros p; cbn [places loops_at]; [split; constructor|].
  set (q := place base ovf p (data_len d)). pose proof (place_ge base ovf p (data_len d) HG) as Hq. fold q in Hq.
  destruct (IH (q + data_len d)) as [J1 J2].
  assert (Hlen : 0 <= data_len d) by (unfold data_len; lia).
  split.
  - apply Forall_app. split.
    + apply Forall_forall. intros x Hx. apply in_map_iff in Hx. destruct Hx as (y & <- & _). unfold ref_addr. cbn. lia.
    + eapply Forall_impl; [|exact J1]. cbv beta. intros; lia.
  - rewrite map_app, map_map. unfold ref_addr at 1. cbn [rr_chunk_base rr_ref_pos].
    assert (Hall : forall y, In y (snd d) -> q + Z.of_nat (ref_pos y) + 2 <= q + data_len d).
    { intros y Hy. rewrite Forall_forall in Hd1. specialize (Hd1 y Hy). unfold data_len. lia. }
    clear Hd1. induction (snd d) as [|y ys IHy]; cbn [map app]; [exact J2|].
    cbn [map] in Hd2. inversion Hd2 as [|? ? Hs1 Hs2]; subst. constructor.
    + apply IHy; [exact Hs1|]. intros z Hz. apply Hall. right. exact Hz.
    + apply Forall_app. split.
      * apply Forall_forall. intros z Hz. apply in_map_iff in Hz. destruct Hz as (w & <- & Hw).
        rewrite Forall_forall in Hs2. specialize (Hs2 (ref_pos w) (in_map ref_pos _ _ Hw)). unfold gap in Hs2. unfold zgap. lia.
      * apply Forall_forall. intros z Hz. apply in_map_iff in Hz. destruct Hz as (w & <- & Hw).
        rewrite Forall_forall in J1. specialize (J1 w Hw). specialize (Hall y (or_introl eq_refl)). unfold zgap. lia.
Qed.
Lemma addrs_nonneg base ovf l e p : good_blocks base ovf e -> 0 <= tb_aram ovf ->
  (forall k q d, nth_error (places base ovf p l) k = Some q -> nth_error l k = Some d -> fst d <> [] -> in_data base ovf q) ->
  Forall (fun x => 0 <= x) (addrs_of base ovf (places base ovf p l) l).
Proof.
  intros (G1 & G2 & G3 & G4 & G5 & G6 & G7) Ho. revert p. induction l as [|d l IH]; intros p H; cbn [places addrs_of]; constructor.
  - unfold addr_of. destruct (fst d) eqn:E; [lia|]. specialize (H O _ d eq_refl eq_refl ltac:(congruence)).
    unfold aram_of. rewrite G6. unfold in_data, in_payload in H. destruct (_ <? _) eqn:E2; unfold payload, payload_end in *; lia.
  - apply IH. intros k q d' Hq Hd. apply (H (S k) q d' Hq Hd).
Qed.

(** ** One song *)
Ltac eqb_cases := repeat match goal with |- context [?p =? ?q] => destruct (Z.eqb_spec p q); try lia end.
Lemma header_ok r ra off ab ta lp r' : 0 <= ta -> ta + 2 <= ra + off -> 0 <= ab + off ->
  write_song_header r ra off ab ta lp = Ok r' ->
  same_outside (fun x => ta <= x < ta + 2 \/ ra + off <= x < ra + off + header_size lp) r r' /\
  bytes_hold r' ta (ab + off) /\ bytes_hold r' (ra + off) (ab + off + header_size lp) /\
  if lp then bytes_hold r' (ra + off + 2) 0xff /\ bytes_hold r' (ra + off + 4) (ab + off) /\ bytes_hold r' (ra + off + 6) 0
  else bytes_hold r' (ra + off + 2) 0.
Proof.
  intros H0 H1 H2 H. unfold write_song_header in H. rewrite !addr_to_bytes_eq in H by (destruct lp; lia). cbv zeta in H.
  set (h := ra + off) in *. set (sa := ab + off) in *.
  replace (ab + (off + (if lp then 8 else 4))) with (sa + header_size lp) in H by (unfold sa, header_size; destruct lp; lia).
  assert (E : wr_all r ([(ta + 1, sa / 256 mod 256); (ta, sa mod 256)] ++
      [(h + 1, (sa + header_size lp) / 256 mod 256); (h, (sa + header_size lp) mod 256)] ++
      (if lp then [(h + 3, 0x00); (h + 2, 0xff); (h + 5, sa / 256 mod 256); (h + 4, sa mod 256); (h + 7, 0x00); (h + 6, 0x00)]
       else [(h + 3, 0x00); (h + 2, 0x00)])) = Ok r').
  { rewrite wr_all_app. inv_bind H. rewrite Ha. cbn [bind]. rewrite wr_all_app. inv_bind H. rewrite Ha0. cbn [bind]. destruct lp; exact H. }
  clear H. apply wr_all_ok in E; [|destruct lp; repeat constructor; cbn; lia]. destruct E as (_ & HL & Hb).
  split.
  { split; [exact HL|]. intros x Hx Hout. rewrite Hb by exact Hx. apply last_write_none. unfold header_size in Hout. destruct lp; repeat constructor; cbn; lia. }
  unfold bytes_hold, header_size.
  split; [|split].
  - rewrite !Hb by lia. unfold last_write. destruct lp; cbn [fold_left fst snd app]; split; eqb_cases; reflexivity.
  - rewrite !Hb by lia. unfold last_write. destruct lp; cbn [fold_left fst snd app header_size]; split; eqb_cases; reflexivity.
  - destruct lp; rewrite !Hb by lia; unfold last_write; cbn [fold_left fst snd app]; repeat split; eqb_cases; reflexivity.
Qed.

Definition wcursor (base ovf : tblock) (p : Z) (st : wstate) : Prop :=
  cursor base ovf p (rom_addr st) (chunk_length st) (aram_base_addr st) (song_offset st).

(** A song in the image, by file address. *)
Record song_at (base ovf : tblock) (r : list Z) (h e : Z) (lp : bool) (s : song) (at_ qs : list Z)
  (l : list (list Z * list call_loop_ref)) : Prop := mk_song_at {
  sa_bounds : 0 <= h /\ h + header_size lp + 16 <= e /\ (forall x, h <= x < h + (header_size lp + 16) -> in_data base ovf x);
  sa_header : bytes_hold r h (aram_of base ovf h + header_size lp);
  sa_after : if lp then bytes_hold r (h + 2) 0xff /\ bytes_hold r (h + 4) (aram_of base ovf h) /\ bytes_hold r (h + 6) 0
    else bytes_hold r (h + 2) 0;
  sa_part : exists part, nth_error (parts s) 0 = Some part /\ forall k, (k < 8)%nat ->
    bytes_hold r (h + header_size lp + 2 * Z.of_nat k) (match nth_error part k with Some ti => nth ti at_ 0 | None => 0 end);
  sa_lens : length qs = length l /\ length at_ = length l;
  sa_places : places_ok base ovf (h + (header_size lp + 16)) e qs l;
  sa_addrs : forall k q d, nth_error qs k = Some q -> nth_error l k = Some d -> nth_error at_ k = Some (addr_of base ovf q d);
  sa_data : forall k q d, nth_error qs k = Some q -> nth_error l k = Some d ->
    (forall j, (j < length (fst d))%nat -> ~ operand (snd d) j -> byte r (q + Z.of_nat j) = nth j (fst d) 0) /\
    (forall x, In x (snd d) -> exists ta, nth_error at_ (target_track x) = Some ta /\ bytes_hold r (q + Z.of_nat (ref_pos x)) ta)
}.

Lemma reserve_ok b verbose base ovf n lp st st' p :
  good_blocks base ovf n -> wcursor base ovf p st -> 24 <= tb_len ovf ->
  reserve_header b verbose (blocks_of base ovf) lp st = Ok st' ->
  let h := place base ovf p (header_size lp + 16) in
  p <= h /\ wcursor base ovf h st' /\ ws_rom st' = ws_rom st /\ song_table_addr st' = song_table_addr st /\
  (forall x, h <= x < h + (header_size lp + 16) -> in_data base ovf x) /\
  cursor base ovf (h + (header_size lp + 16)) (rom_addr st') (chunk_length st') (aram_base_addr st') (song_offset st' + (header_size lp + 16)) /\
  rom_addr st' + song_offset st' = h /\ aram_base_addr st' + song_offset st' = aram_of base ovf h.
Proof.
  intros (G1 & G2 & G3 & G4 & G5 & G6 & G7) Hw H24 H. unfold reserve_header in H. cbn [aram_overflow_base blocks_of] in H.
  change (if lp then 8 else 4) with (header_size lp) in H.
  set (m := header_size lp + 16). assert (Hm : 20 <= m <= 24) by (unfold m, header_size; destruct lp; lia).
  replace (song_offset st + header_size lp + 16) with (song_offset st + m) in H by (unfold m; lia).
  unfold wcursor in Hw. inversion Hw as [p' Hp E0 E1 E2 E3 E4|p' Hp E0 E1 E2 E3 E4]; subst p'.
  - rewrite <- E2, <- E3, <- E4 in H. destruct (Z.ltb_spec (tb_len base) (p - payload base + m)) as [Hlt|Hle].
    + rewrite G6 in H. destruct (Z.eqb_spec 53248 (tb_aram ovf)); [congruence|]. inv_bind H. injection H as <-.
      rewrite (place_switch base ovf p m) by (unfold payload, payload_end in *; lia). cbv zeta.
      cbn [rom_addr song_offset chunk_length aram_base_addr ws_rom song_table_addr blocks_of overflow_chunk_addr overflow_chunk_len].
      unfold payload, payload_end in *.
      split; [lia|]. split.
      { unfold wcursor. cbn. replace 0 with (payload ovf - payload ovf) by lia. apply cursor_ovf. unfold payload, payload_end. lia. }
      split; [reflexivity|]. split; [reflexivity|]. split.
      { intros x Hx. right. unfold in_payload, payload, payload_end. lia. }
      split.
      { replace (0 + m) with (payload ovf + m - payload ovf) by lia. apply cursor_ovf. unfold payload, payload_end. lia. }
      split; [lia|]. unfold aram_of, payload, payload_end. destruct (Z.ltb_spec (tb_start ovf + 4) (tb_start base + 4 + tb_len base)); lia.
    + injection H as <-. rewrite (place_base base ovf p m) by (unfold payload, payload_end in *; lia). cbv zeta.
      split; [lia|]. split; [exact Hw|]. split; [reflexivity|]. split; [reflexivity|]. unfold payload, payload_end in *. split.
      { intros x Hx. left. unfold in_payload, payload, payload_end. lia. }
      split.
      { rewrite <- E1, <- E2, <- E3, <- E4. replace (p - (tb_start base + 4) + m) with (p + m - payload base) by (unfold payload; lia). apply cursor_base. unfold payload, payload_end. lia. }
      split; [lia|]. unfold aram_of, payload, payload_end. destruct (Z.ltb_spec p (tb_start base + 4 + tb_len base)); lia.
  - rewrite <- E2, <- E3, <- E4 in H. destruct (Z.ltb_spec (tb_len ovf) (p - payload ovf + m)) as [Hlt|Hle].
    + rewrite Z.eqb_refl in H. discriminate.
    + injection H as <-. rewrite (place_ovf base ovf p m) by (unfold payload, payload_end in *; lia). cbv zeta.
      split; [lia|]. split; [exact Hw|]. split; [reflexivity|]. split; [reflexivity|]. unfold payload, payload_end in *. split.
      { intros x Hx. right. unfold in_payload, payload, payload_end. lia. }
      split.
      { rewrite <- E1, <- E2, <- E3, <- E4. replace (p - (tb_start ovf + 4) + m) with (p + m - payload ovf) by (unfold payload; lia). apply cursor_ovf. unfold payload, payload_end. lia. }
      split; [lia|]. unfold aram_of, payload, payload_end. destruct (Z.ltb_spec p (tb_start base + 4 + tb_len base)); lia.
Qed.

Lemma addrs_nth base ovf l : forall qs k q d, nth_error qs k = Some q -> nth_error l k = Some d ->
  nth_error (addrs_of base ovf qs l) k = Some (addr_of base ovf q d).
Proof.
  induction l as [|d l IH]; intros [|q qs] [|k] q' d' Hq Hd; cbn in Hq, Hd; try discriminate; cbn [addrs_of nth_error].
  - congruence.
  - eapply IH; eauto.
Qed.

Lemma one_song_at b verbose base ovf n st lp s st' p l :
  good_blocks base ovf n -> wcursor base ovf p st -> size (ws_rom st) = n -> 0 <= tb_aram ovf ->
  24 <= tb_len ovf -> encodes s l ->
  (forall part, nth_error (parts s) 0 = Some part -> (length part <= 8)%nat) ->
  song_stays base ovf p lp l -> 0 <= song_table_addr st -> song_table_addr st + 2 <= p ->
  write_song b verbose (blocks_of base ovf) st lp s = Ok st' ->
  let h := place base ovf p (header_size lp + 16) in let e := song_end base ovf p lp l in
  p <= h /\ wcursor base ovf e st' /\ song_table_addr st' = song_table_addr st + 2 /\
  same_outside (fun x => song_table_addr st <= x < song_table_addr st + 2 \/ free base ovf p e x) (ws_rom st) (ws_rom st') /\
  bytes_hold (ws_rom st') (song_table_addr st) (aram_of base ovf h) /\
  let qs := places base ovf (h + (header_size lp + 16)) l in song_at base ovf (ws_rom st') h e lp s (addrs_of base ovf qs l) qs l.
Proof.
  intros HG Hw Hn Hov H24 [HeL He] Hpart Hstay Hta0 Hta H. cbv zeta. set (h := place base ovf p (header_size lp + 16)).
  set (e := song_end base ovf p lp l).
  unfold write_song in H. inv_bind H. rename a into st1.
  destruct (reserve_ok _ _ _ _ n _ _ _ _ HG Hw H24 Ha) as (R1 & R2 & R3 & R4 & R5 & R6 & R7 & R8). fold h in R1, R2, R5, R6, R7, R8.
  set (m := header_size lp + 16) in *. assert (Hm : 20 <= m <= 24) by (unfold m, header_size; destruct lp; lia).
  cbv zeta in H. change (if lp then 8 else 4) with (header_size lp) in H.
  inv_bind H. rename a into r1.
  destruct (HG) as (G1 & G2 & G3 & G4 & G5 & G6 & G7).
  assert (Hp0 : 0 <= p) by (unfold wcursor in Hw; inversion Hw; unfold payload, payload_end in *; lia).
  rewrite R4 in Ha0.
  assert (Hsa : 0 <= aram_of base ovf h).
  { specialize (R5 h ltac:(lia)). unfold in_data, in_payload, payload, payload_end in R5. unfold aram_of. clear - R5 G1 G2 G3 G4 G6 Hov. unfold payload, payload_end in *. destruct (Z.ltb_spec h (tb_start base + 4 + tb_len base)); lia. }
  assert (Hlt2 : song_table_addr st + 2 <= rom_addr st1 + song_offset st1) by lia.
  destruct (header_ok _ _ _ _ _ _ _ Hta0 Hlt2 ltac:(rewrite R8; exact Hsa) Ha0) as (S1 & S2 & S3 & S4). rewrite R7 in *. rewrite R8 in *.
  (* the tracks *)
  inv_bind H. rename a into ks.
  assert (Hlen : get_num_tracks s = length l) by (unfold get_num_tracks; symmetry; exact HeL).
  rewrite Hlen in Ha1.
  set (ks0 := mk_kstate r1 (song_offset st1 + header_size lp + 16) (rom_addr st1) (chunk_length st1) (aram_base_addr st1) [] []) in *.
  assert (Hk0 : kcursor base ovf (h + m) ks0).
  { unfold kcursor, ks0. cbn. replace (song_offset st1 + header_size lp + 16) with (song_offset st1 + m) by (unfold m; lia). exact R6. }
  assert (Hn1 : size r1 = n) by (rewrite (same_size _ _ _ S1), R3; exact Hn).
  destruct (all_tracks b verbose base ovf n s (song_offset st1) l O ks0 ks (h + m) HG Hk0 Hn1) as (T1 & T2 & T3 & T4 & T5 & T6 & T7).
  { intros k d Hd. apply He. exact Hd. }
  { exact Hstay. }
  { exact Ha1. }
  change (tracks_end base ovf (h + m) l) with e in T1, T2, T3, T4. set (qs := places base ovf (h + m) l) in *.
  cbn [ks_rom ks0 track_addrs call_loops app] in T3, T6, T7.
  set (at_ := addrs_of base ovf qs l) in *.
  (* part table and patches *)
  inv_bind H. rename a into r2. inv_bind H. rename a into part. inv_bind H. rename a into r3. inv_bind H. rename a into r4.
  injection H as <-. cbn [ws_rom song_table_addr].
  rewrite T6 in *. rewrite T7 in *.
  assert (Hpt : nth_error (parts s) 0 = Some part) by (unfold get_part_tracks in Ha3; apply or_panic_ok in Ha3; exact Ha3).
  specialize (Hpart part Hpt).
  replace (rom_addr st1 + (song_offset st1 + header_size lp)) with (h + header_size lp) in * by lia.
  assert (HZ : Forall (fun av => 0 <= fst av) (zero_range (h + header_size lp) 16)).
  { apply Forall_forall. intros x Hx. unfold zero_range in Hx. apply in_map_iff in Hx. destruct Hx as (i & <- & _). cbn. unfold header_size. destruct lp; lia. }
  destruct (wr_all_ok _ _ _ HZ Ha2) as (_ & ZL & ZB).
  assert (Hz : same_outside (fun x => h + header_size lp <= x < h + m) (ks_rom ks) r2).
  { split; [exact ZL|]. intros x Hx Hout. rewrite ZB, zero_range_spec by exact Hx. destruct (_ && _) eqn:E; [unfold m in Hout; lia|reflexivity]. }
  assert (HA : Forall (fun x => 0 <= x) at_).
  { apply (addrs_nonneg base ovf l n (h + m) HG Hov). intros k q d Hq Hd Hne. destruct (T4 k q d Hq Hd) as (_ & _ & Hin). apply Hin.
    unfold data_len. destruct (fst d); [congruence|cbn [length]; lia]. }
  assert (Hhs : header_size lp = 4 \/ header_size lp = 8) by (unfold header_size; destruct lp; auto).
  destruct (write_part_ok at_ part HA r2 (h + header_size lp) r3 ltac:(lia) Ha4) as [P1 P2].
  assert (HR : Forall refs_ok l).
  { apply Forall_forall. intros d Hd. apply In_nth_error in Hd. destruct Hd as [k Hd]. specialize (He k d Hd). destruct d as [data refs].
    destruct (write_track_refs _ _ _ _ He) as (K1 & K2 & _). split; [exact K1|exact K2]. }
  destruct (loops_sorted base ovf l G3 HR (h + m)) as [L1 L2]. fold qs in L1, L2.
  destruct (patch_ok at_ (loops_at qs l) HA) with (r := r3) (r' := r4) as [Q1 Q2]; [eapply Forall_impl; [|exact L1]; cbv beta; intros; lia|exact L2|exact Ha5|].
  (* where patches go *)
  assert (HQ : forall y, (exists x, In x (loops_at qs l) /\ ref_addr x <= y < ref_addr x + 2) ->
     h + m <= y < e /\ in_data base ovf y /\ exists k q d x, nth_error qs k = Some q /\ nth_error l k = Some d /\ In x (snd d) /\ q + Z.of_nat (ref_pos x) <= y < q + Z.of_nat (ref_pos x) + 2).
  { intros y (x & Hx & Hy). destruct (loops_at_in l qs x Hx) as (k & q & d & z & K1 & K2 & K3 & ->). unfold ref_addr in Hy. cbn in Hy.
    destruct (T4 k q d K1 K2) as (K4 & K5 & K6). rewrite Forall_forall in HR. specialize (HR d (nth_error_In _ _ K2)). destruct HR as [K7 _].
    rewrite Forall_forall in K7. specialize (K7 z K3). unfold data_len in *. split; [lia|]. split; [apply K6; lia|]. exists k, q, d, z. auto. }
  assert (Hpart2 : same_outside (fun x => h + header_size lp <= x < h + m) r2 r3).
  { eapply same_outside_weaken; [|exact P1]. cbv beta. unfold m. lia. }
  assert (Hpatch : same_outside (free base ovf (h + m) e) r3 r4).
  { eapply same_outside_weaken; [|exact Q1]. cbv beta. intros x _ Hx. destruct (HQ x Hx) as (? & ? & _). split; [lia|assumption]. }
  assert (Hall : same_outside (fun x => song_table_addr st <= x < song_table_addr st + 2 \/ free base ovf p e x) (ws_rom st) r4).
  { rewrite <- R3. repeat (eapply same_outside_trans; [|eapply same_outside_weaken; [|eassumption]]); try apply same_outside_refl; cbv beta; unfold free.
    all: intros x Hx0 Hx; try (destruct Hx as [Hx|Hx]; [left; lia|]); right; (split; [lia|]); try (apply R5; unfold m; lia); try (apply Hx). }
  split; [exact R1|]. split.
  { unfold wcursor. cbn. unfold kcursor in T2. exact T2. }
  split; [rewrite R4; reflexivity|]. split; [exact Hall|].
  assert (Hstep : same_outside (fun x => h + header_size lp <= x) r1 r4).
  { eapply same_outside_trans; [eapply same_outside_weaken; [|exact T3]|]; [unfold free; intros; lia|].
    eapply same_outside_trans; [eapply same_outside_weaken; [|exact Hz]|]; [cbv beta; intros; lia|].
    eapply same_outside_trans; [eapply same_outside_weaken; [|exact Hpart2]|]; [cbv beta; intros; lia|].
    eapply same_outside_weaken; [|exact Hpatch]. unfold free. intros. lia. }
  split.
  { eapply bytes_hold_same; [exact Hstep|lia| | |exact S2]; cbv beta; lia. }
  fold m. fold qs. fold at_. constructor.
  - split; [lia|]. split; [unfold m in *; lia|exact R5].
  - eapply bytes_hold_same; [exact Hstep|lia| | |exact S3]; cbv beta; lia.
  - destruct lp; cbn [header_size] in *.
    + destruct S4 as (U1 & U2 & U3). split; [|split]; (eapply bytes_hold_same; [exact Hstep|lia| | |eassumption]); cbv beta; lia.
    + eapply bytes_hold_same; [exact Hstep|lia| | |exact S4]; cbv beta; lia.
  - exists part. split; [exact Hpt|]. intros k Hk.
    assert (Hfree : forall x, h + header_size lp <= x < h + m -> ~ free base ovf (h + m) e x) by (unfold free; lia).
    destruct (nth_error part k) as [ti|] eqn:Ek.
    + destruct (P2 k ti Ek) as (ta & E1 & E2). rewrite (nth_error_nth _ _ 0 E1).
      eapply bytes_hold_same; [exact Hpatch|lia| | |exact E2]; apply Hfree; unfold m; lia.
    + apply nth_error_None in Ek.
      assert (Hb0 : forall x, h + header_size lp + 2 * Z.of_nat (length part) <= x < h + m -> byte r4 x = 0).
      { intros x Hx. rewrite (proj2 Hpatch) by (try apply Hfree; lia). rewrite (proj2 P1) by (cbv beta; lia).
        rewrite ZB, zero_range_spec by lia. destruct (_ && _) eqn:E; [reflexivity|unfold m in Hx; lia]. }
      split; rewrite Hb0 by (unfold m; lia); reflexivity.
  - split; [apply places_length|]. unfold at_. apply addrs_length. apply places_length.
  - exact T4.
  - intros k q d Hq Hd. apply addrs_nth; assumption.
  - intros k q d Hq Hd. destruct (T4 k q d Hq Hd) as (K4 & K5 & K6). split.
    + intros j Hj Hno. rewrite (proj2 Q1).
      * rewrite (proj2 Hpart2) by (cbv beta; lia). rewrite (proj2 Hz) by (cbv beta; lia). apply (T5 k q d Hq Hd j Hj).
      * lia.
      * (* not patched *)
        intros Hpat. destruct (HQ _ Hpat) as (_ & _ & k' & q' & d' & x & Hq' & Hd' & Hx & Hy).
        destruct (Nat.eq_dec k k') as [->|Hne].
        -- assert (q' = q) by congruence. assert (d' = d) by congruence. subst q' d'. apply Hno. exists x. split; [exact Hx|]. lia.
        -- (* different tracks do not overlap *)
           assert (Hdis : forall l p k1 k2 q1 q2 d1 d2, (k1 < k2)%nat -> nth_error (places base ovf p l) k1 = Some q1 -> nth_error (places base ovf p l) k2 = Some q2 ->
              nth_error l k1 = Some d1 -> nth_error l k2 = Some d2 -> q1 + data_len d1 <= q2).
           { clear - G3. induction l as [|d0 l IH]; intros p k1 k2 q1 q2 d1 d2 Hk H1 H2 H3 H4; [destruct k1; discriminate|].
             destruct k2 as [|k2]; [lia|]. cbn [places nth_error] in *. destruct k1 as [|k1].
             - cbn in H1, H3. injection H1 as <-. injection H3 as <-. clear IH Hk.
               revert H2. set (p1 := _ + data_len d0). intros H2. assert (Hge : p1 <= q2); [|unfold p1 in *; lia]. clearbody p1. clear H4 d2. revert p1 k2 H2.
               induction l as [|d3 l IH]; intros p1 k2 H2; [destruct k2; discriminate|]. cbn [places] in H2.
               pose proof (place_ge base ovf p1 (data_len d3) G3). assert (0 <= data_len d3) by (unfold data_len; lia).
               destruct k2 as [|k2]; cbn [nth_error] in H2; [injection H2 as <-; lia|]. apply IH in H2. lia.
             - cbn [nth_error] in H1, H3. apply (IH _ k1 k2 q1 q2 d1 d2 ltac:(lia) H1 H2 H3 H4). }
           rewrite Forall_forall in HR. destruct (HR d' (nth_error_In _ _ Hd')) as [K7 _]. rewrite Forall_forall in K7. specialize (K7 x Hx).
           unfold qs in Hq, Hq'.
           destruct (Nat.lt_ge_cases k k') as [Hlt|Hge].
           ++ specialize (Hdis l _ k k' q q' d d' Hlt Hq Hq' Hd Hd'). unfold data_len in *. lia.
           ++ specialize (Hdis l _ k' k q' q d' d ltac:(lia) Hq' Hq Hd' Hd). unfold data_len in *. lia.
    + intros x Hx. destruct (Q2 _ (loops_at_intro l qs k q d x Hq Hd Hx)) as (ta & E1 & E2). exists ta. split; [exact E1|exact E2].
Qed.
Lemma one_song b verbose base ovf n st lp s st' p l :
  good_blocks base ovf n -> wcursor base ovf p st -> size (ws_rom st) = n -> 0 <= tb_aram ovf ->
  24 <= tb_len ovf -> encodes s l ->
  (forall part, nth_error (parts s) 0 = Some part -> (length part <= 8)%nat) ->
  song_stays base ovf p lp l -> 0 <= song_table_addr st -> song_table_addr st + 2 <= p ->
  write_song b verbose (blocks_of base ovf) st lp s = Ok st' ->
  let h := place base ovf p (header_size lp + 16) in let e := song_end base ovf p lp l in
  p <= h /\ wcursor base ovf e st' /\ song_table_addr st' = song_table_addr st + 2 /\
  same_outside (fun x => song_table_addr st <= x < song_table_addr st + 2 \/ free base ovf p e x) (ws_rom st) (ws_rom st') /\
  bytes_hold (ws_rom st') (song_table_addr st) (aram_of base ovf h) /\
  exists at_ qs, song_at base ovf (ws_rom st') h e lp s at_ qs l.
Proof.
  intros HG Hw Hn Hov H24 He Hpart Hstay Hta0 Hta H. cbv zeta.
  destruct (one_song_at b verbose base ovf n st lp s st' p l HG Hw Hn Hov H24 He Hpart Hstay Hta0 Hta H) as (H1 & H2 & H3 & H4 & H5 & H6).
  split; [exact H1|]. split; [exact H2|]. split; [exact H3|]. split; [exact H4|]. split; [exact H5|]. eexists. eexists. exact H6.
Qed.
