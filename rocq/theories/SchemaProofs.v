(** SchemaProofs.v: proofs for C63. *)
From Coq Require Import ZArith List Bool Lia String.
From Verif Require Import Base ProofLib F32 Paths Manifest Schema Midi Json Cli SpecSong SpecSchema SongProofs SongMore.
Import ListNotations.
Open Scope string_scope.
Open Scope list_scope.

Lemma at_path_cons v k k' ks w : at_path v [k] = Some w -> at_path v (k :: k' :: ks) = at_path w (k' :: ks).
Proof. cbn [at_path]. destruct v; try discriminate. destruct (find _ fields) as [[? ?]|]; [|discriminate]. intros H. injection H as <-. reflexivity. Qed.
Lemma schema_inv ty props req pat v : valid definitions (Schema ty props req pat) v ->
  (forall t, ty = Some t -> has_type t v) /\ (forall k s w, In (k, s) props -> at_path v [k] = Some w -> valid definitions s w) /\
  (forall k fs, v = JObj fs -> In k req -> at_path v [k] <> None) /\ (forall p s, pat = Some p -> v = JStr s -> found p s).
Proof. intros H. inversion H; subst. auto. Qed.
Lemma object_at ty props req pat v k s : valid definitions (Schema ty props req pat) v -> ty = Some TObject -> In (k, s) props -> In k req ->
  exists w, at_path v [k] = Some w /\ valid definitions s w.
Proof.
  intros H Ht Hs Hr. destruct (schema_inv _ _ _ _ _ H) as (H1 & H2 & H3 & _). specialize (H1 _ Ht). destruct v; try contradiction.
  specialize (H3 k _ eq_refl Hr). destruct (at_path (JObj fields) [k]) as [w|] eqn:E; [|congruence]. exists w. split; [reflexivity|]. eapply H2; eauto.
Qed.
Lemma song_at v bank names name : valid definitions manifest_schema v -> In (bank, names) slots -> In name names ->
  exists w, valid definitions song_schema w /\ forall k, at_path v [bank; name; k] = at_path w [k].
Proof.
  intros H Hb Hn.
  assert (Hbank : exists w, at_path v [bank] = Some w /\ valid definitions (bank_schema names) w).
  { unfold manifest_schema in H. cbn [slots In] in Hb.
    destruct Hb as [E|[E|[E|[]]]]; injection E as <- <-; (eapply object_at; [exact H|reflexivity| |]); cbn [In]; auto 10. }
  destruct Hbank as (w & Ew & Hw). unfold bank_schema in Hw.
  destruct (object_at _ _ _ _ _ name (SRef "song") Hw eq_refl) as (w' & Ew' & Hw'); [apply in_map_iff; exists name; auto|exact Hn|].
  exists w'. split.
  - inversion Hw' as [n s ? Hs Hv|]; subst. cbn [definitions In] in Hs. destruct Hs as [E|[]]. injection E as <-. exact Hv.
  - intros k. rewrite (at_path_cons v bank name [k] w Ew). apply (at_path_cons w name k [] w' Ew').
Qed.
Lemma slot_named m v dir bank name sd : manifest_new v dir = Ok m -> slot_is m bank name sd -> exists names, In (bank, names) slots /\ In name names.
Proof. intros _ (i & j & names & bk & H1 & H2 & _). exists names. split; eapply nth_error_In; eassumption. Qed.
Lemma schema_reads v : valid definitions manifest_schema v -> forall dir, exists m, manifest_new v dir = Ok m /\
  all_slots m /\ forall bank name sd, slot_is m bank name sd -> slot_given v dir bank name sd.
Proof.
  intros H dir.
  assert (Hin : forall bank names name, In (bank, names) slots -> In name names -> exists w, valid definitions song_schema w /\ (forall k, at_path v [bank; name; k] = at_path w [k]) /\
    exists s, at_path w ["input"] = Some (JStr s) /\ (contains s ".mid" \/ contains s ".json")).
  { intros bank names name Hb Hn. destruct (song_at v bank names name H Hb Hn) as (w & Hw & Ew). exists w. split; [exact Hw|]. split; [exact Ew|].
    unfold song_schema in Hw. destruct (object_at _ _ _ _ _ "input" (Schema (Some TString) [] [] (Some ".*\.(mid|json)")) Hw eq_refl) as (x & Ex & Hx); [cbn [In]; auto|cbn [In]; auto|].
    destruct (schema_inv _ _ _ _ _ Hx) as (H1 & _ & _ & H4). specialize (H1 _ eq_refl). destruct x; try contradiction. exists s. split; [exact Ex|]. exact (proj2 (H4 _ _ eq_refl eq_refl)). }
  destruct (proj2 (manifest_read_iff v dir)) as [m Hm].
  { intros bank names name Hb Hn. destruct (Hin bank names name Hb Hn) as (w & _ & Ew & s & Es & _). exists s. now rewrite Ew. }
  exists m. split; [exact Hm|]. destruct (manifest_slots v dir m Hm) as [Ha Hs]. split; [exact Ha|]. intros bank name sd Hsd.
  destruct (Hs _ _ _ Hsd) as [(s & Es & Ei) Hl Ht]. destruct (slot_named m v dir bank name sd Hm Hsd) as (names & Hb & Hn).
  destruct (Hin bank names name Hb Hn) as (w & Hw & Ew & s' & Es' & Hp). rewrite Ew in *. assert (s' = s) by congruence. subst s'.
  unfold song_schema in Hw. destruct (schema_inv _ _ _ _ _ Hw) as (_ & H2 & _ & _). constructor.
  - exists s. rewrite Ew. auto.
  - rewrite Ew. destruct (at_path w ["loop"]) as [x|] eqn:E; [left|right; auto].
    assert (Hx : valid definitions (Schema (Some TBoolean) [] [] None) x) by (eapply H2; [|exact E]; cbn [In]; auto).
    destruct (schema_inv _ _ _ _ _ Hx) as (H1 & _). specialize (H1 _ eq_refl). destruct x; try contradiction. now rewrite Hl.
  - rewrite Ew. destruct (at_path w ["tempoAdjust"]) as [x|] eqn:E; [left|right; auto].
    assert (Hx : valid definitions (Schema (Some TNumber) [] [] None) x) by (eapply H2; [|exact E]; cbn [In]; auto).
    destruct (schema_inv _ _ _ _ _ Hx) as (H1 & _). specialize (H1 _ eq_refl). destruct x; try contradiction. exists n. split; [reflexivity|]. rewrite Ht. reflexivity.
Qed.

(** ** Values that satisfy the schema *)
Lemma valid_song_json (pairs : list (string * json)) s : at_path (JObj pairs) ["input"] = Some (JStr s) -> (contains s ".mid" \/ contains s ".json") ->
  (forall w, at_path (JObj pairs) ["tempoAdjust"] = Some w -> has_type TNumber w) ->
  (forall w, at_path (JObj pairs) ["loop"] = Some w -> has_type TBoolean w) -> valid definitions song_schema (JObj pairs).
Proof.
  intros Hi Hc Ht Hl. unfold song_schema. constructor.
  - intros t E. injection E as <-. exact I.
  - intros k x w Hk Hw. cbn [In] in Hk. destruct Hk as [E|[E|[E|[]]]]; injection E as <- <-.
    + assert (w = JStr s) by congruence. subst w. constructor; try (intros; contradiction); try discriminate.
      * intros t E. injection E as <-. exact I.
      * intros p s' E E'. injection E as <-. injection E' as <-. split; [reflexivity|exact Hc].
    + constructor; try (intros; contradiction); try discriminate. intros t E. injection E as <-. auto.
    + constructor; try (intros; contradiction); try discriminate. intros t E. injection E as <-. auto.
  - intros k fs _ Hk. cbn [In] in Hk. destruct Hk as [<-|[]]. congruence.
  - discriminate.
Qed.
Lemma at_path_map (f : string -> json) names name : In name names -> at_path (JObj (map (fun n => (n, f n)) names)) [name] = Some (f name).
Proof.
  cbn [at_path]. induction names as [|n names IH]; intros H; [contradiction|]. cbn [map find fst]. destruct (String.eqb_spec name n) as [<-|Hne]; [reflexivity|].
  apply IH. destruct H as [E|H]; [congruence|exact H].
Qed.
Lemma at_path_map_in (f : string -> json) names name w : at_path (JObj (map (fun n => (n, f n)) names)) [name] = Some w -> w = f name /\ In name names.
Proof.
  cbn [at_path]. induction names as [|n names IH]; intros H; [discriminate|]. cbn [map find fst] in H. destruct (String.eqb_spec name n) as [<-|Hne].
  - injection H as <-. split; [reflexivity|now left].
  - destruct (IH H). split; [assumption|now right].
Qed.
Lemma valid_bank f names : (forall n, In n names -> valid definitions song_schema (f n)) -> valid definitions (bank_schema names) (JObj (map (fun n => (n, f n)) names)).
Proof.
  intros H. unfold bank_schema. constructor.
  - intros t E. injection E as <-. exact I.
  - intros k s w Hk Hw. apply in_map_iff in Hk. destruct Hk as (n & E & Hn). injection E as <- <-. apply at_path_map_in in Hw. destruct Hw as [-> _].
    econstructor; [left; reflexivity|]. auto.
  - intros k fs _ Hk. rewrite (at_path_map f names k Hk). discriminate.
  - discriminate.
Qed.
Definition manifest_json (f : string -> json) : json := JObj (map (fun s => (fst s, JObj (map (fun n => (n, f n)) (snd s)))) slots).
Lemma valid_manifest f : (forall n, valid definitions song_schema (f n)) -> valid definitions manifest_schema (manifest_json f).
Proof.
  intros H. unfold manifest_schema. constructor.
  - intros t E. injection E as <-. exact I.
  - intros k s w Hk Hw. cbn [In] in Hk. destruct Hk as [E|[E|[E|[]]]]; injection E as <- <-; cbn in Hw; injection Hw as <-.
    + apply (valid_bank f overworld_names). auto.
    + apply (valid_bank f indoor_names). auto.
    + apply (valid_bank f ending_names). auto.
  - intros k fs _ Hk. cbn [In] in Hk. destruct Hk as [<-|[<-|[<-|[]]]]; cbn; discriminate.
  - discriminate.
Qed.
Lemma sample_valid : valid definitions manifest_schema sample_manifest.
Proof.
  apply (valid_manifest slot_json). intros n. unfold slot_json. destruct (String.eqb n "Boss").
  - apply (valid_song_json _ "b.mid"); [reflexivity| |discriminate|].
    + left. exists "b", "". reflexivity.
    + intros w E. cbn in E. injection E as <-. exact I.
  - apply (valid_song_json _ "/x/a.mid"); [reflexivity| |discriminate|discriminate]. left. exists "/x/a", "". reflexivity.
Qed.
(** A name the schema accepts, which is neither a ".mid" nor a ".json" file. *)
Definition backup_json : json := manifest_json (fun _ => JObj [("input", JStr "/x/a.mid.bak")]).
Lemma backup_valid : valid definitions manifest_schema backup_json.
Proof.
  apply valid_manifest. intros n. apply (valid_song_json _ "/x/a.mid.bak"); [reflexivity| |discriminate|discriminate]. left. exists "/x/a", ".bak". reflexivity.
Qed.
Lemma backup_crash : exists v m sd p, valid definitions manifest_schema v /\ manifest_new v "/music" = Ok m /\ slot_is m "indoor" "Boss" sd /\
  input sd = Some p /\ contains p ".mid" /\
  forall b w order optimize, json_file w p = None -> exists e, converter b w order optimize p (tempo_factor sd) = Panic e.
Proof.
  exists backup_json. eexists. exists (song_def_default "/x/a.mid.bak"), "/x/a.mid.bak". split; [exact backup_valid|]. split; [vm_compute; reflexivity|]. split.
  { exists 1%nat, 5%nat. eexists. eexists. split; [reflexivity|]. split; [reflexivity|]. split; reflexivity. }
  split; [reflexivity|]. split; [exists "/x/a", ".bak"; reflexivity|].
  intros b w order optimize Hw. eexists. unfold converter. replace (extension "/x/a.mid.bak") with (Some "bak") by (vm_compute; reflexivity).
  cbn [String.eqb Ascii.eqb Bool.eqb]. rewrite Hw. reflexivity.
Qed.
