(** DummyExamples.v: the build of C72 on a dummy ROM. *)
From Coq Require Import ZArith List String.
From Verif Require Import Base F32 Messages Command Track Song Paths Manifest Midi Json Cli SpecMidi SpecNotes SpecVoices SpecRom SpecBank Run SpecRun SpecCommand SpecSuccess
  SpecRendered MidiExamples CommandExamples SuccessExamples RomLib RomBanks RomMore RomFinal RenderExamples DummyProofs.
From Verif Require Rom.
Import ListNotations.
Open Scope Z_scope.

Lemma cmd_dummy b skip : exists d, Rom.fake_image b big_rom (map lo_addr big_layouts) = Ok d /\
  exists f', built b cmd_tools id_order cmd_os (mk_flags skip false) cmd_line "rom.sfc"%string (store cmd_files "rom.sfc"%string d) f' d cmd_manifest big_layouts.
Proof.
  destruct (fake_total b big_rom (map lo_addr big_layouts) big_image) as [d Hd].
  { rewrite Forall_map. eapply Forall_impl; [|exact big_layouts_ok]. intros L HL. split; [exact (layout_pointers _ _ HL)|].
    destruct HL as [_ _ (bs & t & Hch & _) _ _ _]. eauto. }
  exists d. split; [exact Hd|]. destruct (cmd_built b skip) as [f' HB].
  destruct (built_on_dummy _ _ _ _ _ _ _ _ _ _ _ _ d HB cmd_elsewhere Hd) as (g' & _ & _ & HB' & _). eauto.
Qed.
