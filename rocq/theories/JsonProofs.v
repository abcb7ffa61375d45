(** JsonProofs.v: which JSON values are read as which songs (C44). *)
From Coq Require Import ZArith List Bool Lia ZifyBool ZifyNat String.
From Verif Require Import Base ProofLib Command Track SeqTree Song Manifest Json SpecJson.
Import ListNotations.
Open Scope string_scope.
Open Scope list_scope.
Open Scope Z_scope.

Lemma byte_iff v n : de_u8 v = Some n <-> is_byte v n.
Proof.
  unfold de_u8, de_uint, is_byte. change (2 ^ 8) with 256. split.
  - destruct v as [| |[m|]| | |]; try discriminate. destruct ((0 <=? m) && (m <? 256)) eqn:E; [|discriminate]. intros H. injection H as <-. split; [reflexivity|lia].
  - intros [-> H]. replace ((0 <=? n) && (n <? 256)) with true by lia. reflexivity.
Qed.
Lemma index_iff v n : de_usize v = Some n <-> is_index v n.
Proof.
  unfold de_usize, de_uint, is_index. split.
  - destruct v as [| |[m|]| | |]; try discriminate. destruct ((0 <=? m) && (m <? 2 ^ 64)) eqn:E; [|discriminate]. cbn [option_map]. intros H. injection H as <-.
    rewrite Z2Nat.id by lia. split; [reflexivity|lia].
  - intros [-> H]. replace ((0 <=? Z.of_nat n) && (Z.of_nat n <? 2 ^ 64)) with true by lia. cbn [option_map]. now rewrite Nat2Z.id.
Qed.
Lemma option_iff v o : de_opt_u8 v = Some o <-> is_option v o.
Proof.
  unfold de_opt_u8, is_option. destruct o as [n|].
  - rewrite <- byte_iff. destruct v as [| |m| | |]; try (split; discriminate). destruct (de_u8 (JNum m)); cbn [option_map]; split; congruence.
  - split; [|intros ->; reflexivity]. destruct v; try discriminate; [reflexivity|]. destruct (de_u8 (JNum n)); discriminate.
Qed.
Lemma mapM_iff {A} (f : json -> option A) (R : json -> A -> Prop) : (forall v x, f v = Some x <-> R v x) -> forall vs xs, mapM f vs = Some xs <-> Forall2 R vs xs.
Proof.
  intros H. induction vs as [|v vs IH]; intros xs; cbn [mapM].
  - split; [intros E; injection E as <-; constructor|intros E; inversion E; reflexivity].
  - split.
    + destruct (f v) as [y|] eqn:Ef; [|discriminate]. destruct (mapM f vs) as [ys|]; [|discriminate]. intros E. injection E as <-. constructor; [now apply H|now apply IH].
    + intros E. inversion E as [|a b l l' Hab Hl]; subst. apply H in Hab. apply IH in Hl. now rewrite Hab, Hl.
Qed.
Lemma list_iff {A} (f : json -> option A) (R : json -> A -> Prop) : (forall v x, f v = Some x <-> R v x) -> forall v xs, de_vec f v = Some xs <-> is_list R v xs.
Proof.
  intros H v xs. unfold de_vec, is_list. split.
  - destruct v; try discriminate. intros E. exists l. split; [reflexivity|]. now apply (mapM_iff f R H).
  - intros (vs & -> & E). now apply (mapM_iff f R H).
Qed.
Lemma filter_none k fs : filter (fun p : string * json => String.eqb (fst p) k) fs = [] <-> absent fs k.
Proof.
  unfold absent. induction fs as [|[a v] fs IH]; cbn [filter map In fst]; [tauto|]. destruct (String.eqb_spec a k) as [->|Hn]; [split; [discriminate|tauto]|]. rewrite IH. tauto.
Qed.
Lemma field_once k fs v : field k fs = Some (Some v) <-> once fs k v.
Proof.
  unfold field, once. split.
  - intros H. assert (E : exists k', filter (fun p : string * json => String.eqb (fst p) k) fs = [(k', v)]).
    { destruct (filter _ fs) as [|[k' v'] [|]]; try discriminate. injection H as <-. eauto. }
    destruct E as [k' E]. clear H. revert E. induction fs as [|[a w] fs IH]; cbn [filter fst]; [discriminate|]. destruct (String.eqb_spec a k) as [->|Hn].
    + intros E. injection E as _ <- E. apply filter_none in E. exists [], fs. split; [reflexivity|exact E].
    + intros E. destruct (IH E) as (l1 & l2 & -> & Hi). exists ((a, w) :: l1), l2. split; [reflexivity|]. cbn [app map In fst]. intros [H|H]; [congruence|now apply Hi].
  - intros (l1 & l2 & -> & Hn). rewrite map_app, in_app_iff in Hn. rewrite filter_app. cbn [filter fst]. rewrite String.eqb_refl.
    rewrite (proj2 (filter_none k l1)) by (unfold absent; tauto). rewrite (proj2 (filter_none k l2)) by (unfold absent; tauto). reflexivity.
Qed.
Lemma field_absent k fs : field k fs = Some None <-> absent fs k.
Proof. rewrite <- filter_none. unfold field. destruct (filter _ fs) as [|[? ?] [|]]; split; try discriminate; reflexivity. Qed.
Lemma req_iff {A} (f : json -> option A) k fs x : req k f fs = Some x <-> exists v, once fs k v /\ f v = Some x.
Proof.
  unfold req. split.
  - destruct (field k fs) as [[v|]|] eqn:E; try discriminate. intros H. exists v. split; [now apply field_once|exact H].
  - intros (v & Ho & H). apply field_once in Ho. now rewrite Ho.
Qed.
Lemma opt_iff k fs o : opt_field k fs = Some o <-> option_key fs k o.
Proof.
  unfold opt_field, option_key. split.
  - destruct (field k fs) as [[v|]|] eqn:E; try discriminate; intros H.
    + right. exists v. split; [now apply field_once|now apply option_iff].
    + left. injection H as <-. split; [now apply field_absent|reflexivity].
  - intros [[Ha ->]|(v & Ho & H)]; [apply field_absent in Ha; now rewrite Ha|]. apply field_once in Ho. rewrite Ho. now apply option_iff.
Qed.
Ltac pick H := repeat match type of H with
  | (if String.eqb ?a ?b then _ else _) = Some _ => destruct (String.eqb_spec a b); [subst; injection H as <-; reflexivity|]
  end; discriminate H.
Lemma variant_iff name ps c : command_of_bytes name ps = Some c <-> spelled c = Some (name, ps).
Proof.
  split.
  - intros H. destruct ps as [|p [|q [|r [|? ?]]]]; cbn [command_of_bytes] in H; pick H.
  - intros H. destruct c; cbn [spelled] in H; try discriminate; injection H as <- <-; reflexivity.
Qed.
Lemma not_call name ps c : spelled c = Some (name, ps) -> String.eqb name "CallLoop" = false.
Proof. destruct c; cbn [spelled]; try discriminate; intros H; injection H as <- <-; reflexivity. Qed.
Lemma command_iff v c : de_command v = Some c <-> is_command v c.
Proof.
  split.
  - destruct v as [| | |name| |fs]; try discriminate.
    + cbn [de_command]. intros H. apply ic_name. now apply variant_iff.
    + destruct fs as [|[name v] [|]]; try discriminate. cbn [de_command]. destruct (String.eqb_spec name "CallLoop") as [->|Hn].
      * destruct v as [| | | |l|]; try discriminate. destruct l as [|v [|w [|]]]; try discriminate.
        destruct (de_usize v) as [t|] eqn:Et; [|discriminate]. destruct (de_u8 w) as [n|] eqn:En; [|discriminate]. intros H. injection H as <-.
        apply ic_call; [now apply index_iff|now apply byte_iff].
      * destruct v as [| |j| |l|]; try discriminate.
        -- intros H. apply ic_null. now apply variant_iff.
        -- destruct (de_u8 (JNum j)) as [p|] eqn:E; [|discriminate]. intros H. apply (ic_one name c (JNum j) p); [now apply variant_iff|now apply byte_iff].
        -- destruct (Nat.ltb 1 (Datatypes.length l)) eqn:El; [|discriminate]. destruct (mapM de_u8 l) as [ps|] eqn:E; [|discriminate]. intros H.
           apply (mapM_iff de_u8 is_byte byte_iff) in E. assert (Hl : Datatypes.length l = Datatypes.length ps) by (clear -E; induction E; cbn; congruence).
           destruct ps as [|p [|q ps]]; [cbn in Hl; apply Nat.ltb_lt in El; lia|cbn in Hl; apply Nat.ltb_lt in El; lia|].
           apply (ic_more name c (JArr l) p q ps); [now apply variant_iff|]. exists l. split; [reflexivity|exact E].
  - intros H. destruct H as [name c E|name c E|name c v p E Hb|name c v p q l E Hl|v w t n Ht Hn]; cbn [de_command].
    + now apply variant_iff.
    + rewrite (not_call _ _ _ E). now apply variant_iff.
    + rewrite (not_call _ _ _ E). pose proof Hb as [-> _]. apply byte_iff in Hb. rewrite Hb. now apply variant_iff.
    + rewrite (not_call _ _ _ E). destruct Hl as (vs & -> & Hv). apply (mapM_iff de_u8 is_byte byte_iff) in Hv.
      assert (Hlen : Nat.ltb 1 (Datatypes.length vs) = true). { apply (mapM_iff de_u8 is_byte byte_iff) in Hv. inversion Hv as [|a b l1 l1' _ Hv']; subst. inversion Hv'; subst. reflexivity. }
      rewrite Hlen, Hv. now apply variant_iff.
    + cbn [String.eqb]. apply index_iff in Ht. apply byte_iff in Hn. rewrite Ht, Hn. reflexivity.
Qed.
Lemma pcmd_iff v c : de_pcmd v = Some c <-> is_pcmd v c.
Proof.
  split.
  - destruct v as [| | | |l|fs]; try discriminate; cbn [de_pcmd].
    + destruct l as [|v1 [|v2 [|v3 [|v4 [|]]]]]; try discriminate.
      destruct (de_opt_u8 v1) eqn:E1; [|discriminate]. destruct (de_opt_u8 v2) eqn:E2; [|discriminate]. destruct (de_opt_u8 v3) eqn:E3; [|discriminate].
      destruct (de_command v4) eqn:E4; [|discriminate]. intros H. injection H as <-. apply ip_array; try (now apply option_iff). now apply command_iff.
    + destruct (opt_field "duration" fs) eqn:E1; [|discriminate]. destruct (opt_field "velocity" fs) eqn:E2; [|discriminate]. destruct (opt_field "sustain" fs) eqn:E3; [|discriminate].
      destruct (req "command" de_command fs) eqn:E4; [|discriminate]. intros H. injection H as <-. apply req_iff in E4. destruct E4 as (w & Ho & Hc).
      eapply ip_object; try (now apply opt_iff); [exact Ho|now apply command_iff].
  - intros H. destruct H as [fs d ve su w c H1 H2 H3 H4 H5|v1 v2 v3 v4 d ve su c H1 H2 H3 H4]; cbn [de_pcmd].
    + apply opt_iff in H1, H2, H3. rewrite H1, H2, H3. apply command_iff in H5. rewrite (proj2 (req_iff de_command "command" fs c)) by eauto. reflexivity.
    + apply option_iff in H1, H2, H3. apply command_iff in H4. now rewrite H1, H2, H3, H4.
Qed.
Lemma track_iff v t : de_track v = Some t <-> is_track v t.
Proof.
  pose proof (list_iff de_pcmd is_pcmd pcmd_iff) as L. split.
  - destruct v as [| | | |l|fs]; try discriminate; cbn [de_track].
    + destruct l as [|w [|]]; try discriminate. intros H. apply it_array. now apply L.
    + intros H. apply req_iff in H. destruct H as (w & Ho & H). eapply it_object; [exact Ho|now apply L].
  - intros H. destruct H as [fs w l Ho Hl|w l Hl]; cbn [de_track]; [apply req_iff; exists w; split; [exact Ho|now apply L]|now apply L].
Qed.
Lemma part_iff v t : de_part v = Some t <-> is_part v t.
Proof.
  pose proof (list_iff de_usize is_index index_iff) as L. split.
  - destruct v as [| | | |l|fs]; try discriminate; cbn [de_part].
    + destruct l as [|w [|]]; try discriminate. intros H. apply ir_array. now apply L.
    + intros H. apply req_iff in H. destruct H as (w & Ho & H). eapply ir_object; [exact Ho|now apply L].
  - intros H. destruct H as [fs w l Ho Hl|w l Hl]; cbn [de_part]; [apply req_iff; exists w; split; [exact Ho|now apply L]|now apply L].
Qed.
Lemma song_iff v s : de_song v = Some s <-> is_song v s.
Proof.
  pose proof (list_iff de_part is_part part_iff) as L1. pose proof (list_iff de_track is_track track_iff) as L2. split.
  - destruct v as [| | | |l|fs]; try discriminate; cbn [de_song].
    + destruct l as [|v [|w [|]]]; try discriminate. destruct (de_vec de_part v) eqn:E1; [|discriminate]. destruct (de_vec de_track w) eqn:E2; [|discriminate].
      intros H. injection H as <-. apply is_array; [now apply L1|now apply L2].
    + destruct (req "parts" (de_vec de_part) fs) eqn:E1; [|discriminate]. destruct (req "tracks" (de_vec de_track) fs) eqn:E2; [|discriminate].
      intros H. injection H as <-. apply req_iff in E1, E2. destruct E1 as (v & Ho & Hv). destruct E2 as (w & Ho' & Hw).
      eapply is_object; [exact Ho|now apply L1|exact Ho'|now apply L2].
  - intros H. destruct H as [fs v w ps ts Hv Hp Hw Ht|v w ps ts Hp Ht]; cbn [de_song].
    + rewrite (proj2 (req_iff (de_vec de_part) "parts" fs ps)) by (exists v; split; [exact Hv|now apply L1]).
      rewrite (proj2 (req_iff (de_vec de_track) "tracks" fs ts)) by (exists w; split; [exact Hw|now apply L2]). reflexivity.
    + apply L1 in Hp. apply L2 in Ht. now rewrite Hp, Ht.
Qed.
(** Reading a song file. *)
Lemma reads_iff (file : option json) : 
  (forall s, from_json file = Ok s <-> exists v, file = Some v /\ is_song v s) /\
  ((~ exists v s, file = Some v /\ is_song v s) -> from_json file = Panic PUnwrap).
Proof.
  unfold from_json. destruct file as [v|]; cbn [or_panic bind].
  - split.
    + intros s. split.
      * destruct (de_song v) as [s'|] eqn:E; [|discriminate]. cbn [or_panic]. intros H. injection H as <-. exists v. split; [reflexivity|now apply song_iff].
      * intros (w & Ew & H). injection Ew as <-. apply song_iff in H. now rewrite H.
    + intros H. destruct (de_song v) as [s|] eqn:E; [|reflexivity]. exfalso. apply H. exists v, s. split; [reflexivity|now apply song_iff].
  - split; [|reflexivity]. intros s. split; [discriminate|]. intros (w & Ew & _). discriminate.
Qed.
(** A hand-written song with an unknown key, keys in another order, a null and an array form, and one with a key twice. *)
Definition hand_note : json := JObj [("command", JObj [("Note", jint 164)]); ("comment", JStr "a"); ("duration", jint 24); ("sustain", JNull)].
Definition hand_track : json := JArr [JArr [hand_note; JArr [JNull; JNull; JNull; JStr "Rest"]]].
Definition hand_song : json := JObj [("tracks", JArr [hand_track]); ("title", JStr "b"); ("parts", JArr [JObj [("tracks", JArr [jint 0])]])].
Definition twice_song : json := JObj [("tracks", JArr [hand_track]); ("parts", JArr []); ("tracks", JArr [hand_track])].
Lemma hand_read : is_song hand_song (mk_song [[0%nat]] [[mk_pcmd (Some 24) None None (Note 164); mk_pcmd None None None Rest]]).
Proof. apply song_iff. vm_compute. reflexivity. Qed.
Lemma twice_not_read : ~ exists s, is_song twice_song s.
Proof. intros [s H]. apply song_iff in H. vm_compute in H. discriminate. Qed.
