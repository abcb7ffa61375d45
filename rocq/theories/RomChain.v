(** RomChain.v: block chains: neighbours, stability, and ARAM contents (C33-C36, C39). *)
From Coq Require Import ZArith List Bool Lia ZifyBool ZifyNat Sorted.
From Verif Require Import Base F32 Command Track Song Paths Manifest Rom SpecNspc SpecRom SpecBank ProofLib CodecProofs RomLib RomProofs RomBank.
Ltac Zify.zify_post_hook ::= Z.div_mod_to_equations.
Open Scope Z_scope.

Lemma chain_bounds r a bs t : is_image r -> chain r a bs t ->
  Forall (fun b => a <= tb_start b /\ 0 <= tb_len b /\ payload_end b <= size r /\ b = block_at r (tb_start b)) (bs ++ [t]).
Proof.
  intros Hr H. induction H as [a H0 H1 Hw|a bs t H0 H1 Hw Hc IH].
  - cbn [app]. repeat constructor; cbn [block_at tb_start tb_len payload_end]; try lia. unfold payload_end, block_at. cbn [tb_start tb_len]. lia.
  - cbn [app]. pose proof (word_u16 r a Hr) as Hw0. constructor.
    + unfold payload_end, block_at. cbn [tb_start tb_len]. destruct (chain_head _ _ _ _ Hc) as (_ & _ & _ & K1 & K2). repeat split; lia.
    + eapply Forall_impl; [|exact IH]. cbv beta. intros b (K1 & K2). split; [lia|exact K2].
Qed.

Lemma chain_split r a pre : forall bs t b0 post, chain r a bs t -> bs ++ [t] = pre ++ b0 :: post -> exists bs', chain r (tb_start b0) bs' t /\ bs' ++ [t] = b0 :: post.
Proof.
  revert a. induction pre as [|x pre IH]; intros a bs t b0 post Hc E; cbn [app] in E.
  - exists bs. split; [|exact E]. destruct Hc; cbn [app] in E; injection E as <- <-; cbn [block_at tb_start]; [apply chain_end|apply chain_block]; auto.
  - destruct Hc as [a H0 H1 Hw|a bs t H0 H1 Hw Hc]; cbn [app] in E; injection E as E1 E2.
    + destruct pre; discriminate.
    + eapply IH; eassumption.
Qed.
(** Blocks follow one another: everything before a block ends before it starts. *)
Lemma chain_order r a bs t pre b0 post : is_image r -> chain r a bs t -> bs ++ [t] = pre ++ b0 :: post ->
  Forall (fun b => payload_end b <= tb_start b0) pre /\ Forall (fun b => payload_end b0 <= tb_start b) post.
Proof.
  intros Hr. revert a bs. induction pre as [|x pre IH]; intros a bs Hc E; cbn [app] in E.
  - split; [constructor|]. destruct Hc as [a H0 H1 Hw|a bs t H0 H1 Hw Hc]; cbn [app] in E; injection E as E1 E2; subst.
    + constructor.
    + eapply Forall_impl; [|exact (chain_bounds _ _ _ _ Hr Hc)]. cbv beta. unfold payload_end, block_at. cbn [tb_start tb_len]. lia.
  - destruct Hc as [a H0 H1 Hw|a bs t H0 H1 Hw Hc]; cbn [app] in E; injection E as E1 E2.
    + destruct pre; discriminate.
    + destruct (IH _ _ Hc E2) as [I1 I2]. split; [|exact I2]. constructor; [|exact I1]. subst x.
      pose proof (chain_bounds _ _ _ _ Hr Hc) as HB. rewrite E2 in HB. rewrite Forall_app in HB. destruct HB as [_ HB]. inversion HB as [|? ? HB1 HB2]; subst.
      unfold payload_end, block_at. cbn [tb_start tb_len]. lia.
Qed.
Lemma chain_next r a bs t pre b1 b2 post : chain r a bs t -> bs ++ [t] = pre ++ b1 :: b2 :: post -> tb_start b2 = payload_end b1.
Proof.
  intros Hc E. destruct (chain_split _ _ _ _ _ _ _ Hc E) as (bs' & Hc' & E').
  destruct Hc' as [a' H0 H1 Hw|a' bs' t H0 H1 Hw Hc']; cbn [app] in E'; [discriminate|]. injection E' as E1 E2. subst b1.
  destruct (chain_head _ _ _ _ Hc') as (b0 & K1 & K2 & _). assert (b2 = b0) by (destruct bs'; cbn [app] in E2; injection E2; congruence).
  subst b2 b0. rewrite K2. reflexivity.
Qed.

Lemma song_blocks_good r base_addr pre base ovf post : is_image r -> song_blocks r base_addr pre base ovf post -> good_blocks base ovf (size r).
Proof.
  intros Hr (bs & t & Hc & E & Hb & HF). pose proof (chain_next _ _ _ _ _ _ _ _ Hc E) as HN.
  pose proof (chain_bounds _ _ _ _ Hr Hc) as HB. rewrite E in HB. apply Forall_app in HB. destruct HB as [_ HB].
  apply Forall_cons_iff in HB. destruct HB as [(B1 & B2 & B3 & _) HB]. apply Forall_cons_iff in HB. destruct HB as [(C1 & C2 & C3 & _) _].
  apply Forall_cons_iff in HF. destruct HF as [HF _]. pose proof (bank_chain_nonneg r base_addr Hr). repeat split; auto; lia.
Qed.

(** Changes away from the headers leave a chain as it is. *)
Lemma chain_same (P : Z -> Prop) r r' a bs t : same_outside P r r' -> chain r a bs t ->
  Forall (fun b => forall x, tb_start b <= x < payload b -> ~ P x) (bs ++ [t]) -> chain r' a bs t.
Proof.
  intros HS Hc. induction Hc as [a H0 H1 Hw|a bs t H0 H1 Hw Hc IH]; intros HF; cbn [app] in HF; apply Forall_cons_iff in HF; destruct HF as [Hx HF];
    unfold payload, block_at in Hx; cbn [tb_start] in Hx;
    assert (E1 : word r' a = word r a) by (eapply same_word; [exact HS|lia| |]; apply Hx; lia);
    assert (E2 : word r' (a + 2) = word r (a + 2)) by (eapply same_word; [exact HS|lia| |]; apply Hx; lia);
    assert (E3 : block_at r a = block_at r' a) by (unfold block_at; rewrite E1, E2; reflexivity); rewrite E3.
  - apply chain_end; [exact H0|rewrite (same_size _ _ _ HS); exact H1|congruence].
  - apply chain_block; [exact H0|rewrite (same_size _ _ _ HS); exact H1|congruence|]. rewrite E1. apply IH. exact HF.
Qed.

Lemma data_off_headers r a bs t pre base ovf post : is_image r -> chain r a bs t -> bs ++ [t] = pre ++ base :: ovf :: post ->
  Forall (fun b => forall x, tb_start b <= x < payload b -> ~ in_data base ovf x) (bs ++ [t]).
Proof.
  intros Hr Hc E. pose proof (chain_order _ _ _ _ _ _ _ Hr Hc E) as [O1 O2].
  assert (E' : bs ++ [t] = (pre ++ [base]) ++ ovf :: post) by (rewrite E, <- app_assoc; reflexivity).
  pose proof (chain_order _ _ _ _ _ _ _ Hr Hc E') as [O3 O4]. pose proof (chain_bounds _ _ _ _ Hr Hc) as HB. rewrite E in *.
  apply Forall_app in HB. destruct HB as [HB1 HB]. apply Forall_cons_iff in HB. destruct HB as [HB2 HB]. apply Forall_cons_iff in HB. destruct HB as [HB3 HB4].
  apply Forall_cons_iff in O2. destruct O2 as [O2 O2']. apply Forall_app in O3. destruct O3 as [O3 _].
  apply Forall_app. split; [|constructor; [|constructor]].
  - rewrite Forall_forall in *. intros b Hb x Hx. specialize (O1 b Hb). specialize (O3 b Hb). destruct (HB1 b Hb) as (_ & K & _).
    unfold in_data, in_payload, payload, payload_end in *. lia.
  - intros x Hx. unfold in_data, in_payload, payload, payload_end in *. lia.
  - intros x Hx. unfold in_data, in_payload, payload, payload_end in *. lia.
  - rewrite Forall_forall in *. intros b Hb x Hx. specialize (O4 b Hb). specialize (O2' b Hb). unfold in_data, in_payload, payload, payload_end in *. lia.
Qed.

(** The image after changes inside the two payloads has the same blocks. *)
Lemma song_blocks_same (P : Z -> Prop) r r' base_addr pre base ovf post : is_image r -> same_outside P r r' ->
  (forall x, P x -> in_data base ovf x) -> (forall x, pointer_bytes base_addr x -> ~ P x) ->
  song_blocks r base_addr pre base ovf post -> song_blocks r' base_addr pre base ovf post.
Proof.
  intros Hr HS HP Hpt (bs & t & Hc & E & Hb & HF).
  assert (EC : bank_chain r' base_addr = bank_chain r base_addr).
  { unfold bank_chain. rewrite !(proj2 HS); auto; try apply lorom24_nonneg; apply Hpt; unfold pointer_bytes; auto. }
  exists bs, t. split; [|auto]. rewrite EC. eapply chain_same; [exact HS|exact Hc|].
  eapply Forall_impl; [|exact (data_off_headers _ _ _ _ _ _ _ _ Hr Hc E)]. cbv beta. intros b Hx x Hx' Hp. apply (Hx x Hx'). apply HP. exact Hp.
Qed.

(** ** ARAM *)
Lemma aram_none r bs a : Forall (fun b => ~ (tb_aram b <= a < tb_aram b + tb_len b)) bs -> aram r bs a = None.
Proof.
  intros H. induction H as [|b bs Hb _ IH]; cbn [aram]; [reflexivity|]. rewrite IH.
  destruct ((tb_aram b <=? a) && (a <? tb_aram b + tb_len b)) eqn:E; [lia|reflexivity].
Qed.
Lemma aram_app r bs1 bs2 a : aram r (bs1 ++ bs2) a = match aram r bs2 a with Some v => Some v | None => aram r bs1 a end.
Proof.
  induction bs1 as [|b bs1 IH]; cbn [app aram]; [destruct (aram r bs2 a); reflexivity|]. rewrite IH. destruct (aram r bs2 a); reflexivity.
Qed.
Lemma aram_here r b bs a : tb_aram b <= a < tb_aram b + tb_len b -> Forall (fun b' => ~ (tb_aram b' <= a < tb_aram b' + tb_len b')) bs ->
  aram r (b :: bs) a = Some (byte r (payload b + (a - tb_aram b))).
Proof.
  intros Ha Hb. cbn [aram]. rewrite (aram_none r bs a Hb). destruct ((tb_aram b <=? a) && (a <? tb_aram b + tb_len b)) eqn:E; [reflexivity|lia].
Qed.
Lemma aram_reads r pre base ovf post n : good_blocks base ovf n -> Forall (apart base) (ovf :: post) -> Forall (apart ovf) post ->
  reads base ovf r (aram r (pre ++ base :: ovf :: post)).
Proof.
  intros (G1 & G2 & G3 & G4 & G5 & G6 & G7) F1 F2 x Hx. rewrite aram_app.
  destruct Hx as [Hx|Hx]; unfold in_payload, payload, payload_end in Hx.
  - assert (Ea : aram_of base ovf x = tb_aram base + (x - payload base)) by (unfold aram_of, payload, payload_end in *; destruct (Z.ltb_spec x (tb_start base + 4 + tb_len base)); lia).
    rewrite aram_here; rewrite ?Ea.
    + f_equal. f_equal. lia.
    + unfold payload. lia.
    + eapply Forall_impl; [|exact F1]. cbv beta. unfold apart, payload. intros b' K. lia.
  - assert (Ea : aram_of base ovf x = tb_aram ovf + (x - payload ovf)) by (unfold aram_of, payload, payload_end in *; destruct (Z.ltb_spec x (tb_start base + 4 + tb_len base)); lia).
    change (base :: ovf :: post) with ([base] ++ ovf :: post). rewrite aram_app, aram_here; rewrite ?Ea.
    + f_equal. f_equal. lia.
    + unfold payload. lia.
    + eapply Forall_impl; [|exact F2]. cbv beta. unfold apart, payload. intros b' K. lia.
Qed.
