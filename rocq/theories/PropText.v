(** C66: the text of a generated module is a file of C.
    Specification: SpecC.v, SpecCStmt.v and SpecCModule.v (reading C text). *)
From Verif Require Import Base Buf Nodes CAst FormatChe FormatC SpecLex SpecC CReadFacts SpecCStmt CUnique CStmtFacts CStmtUnique SpecCModule CModuleFacts CModuleUnique
  Translator ModuleCheck Resolve Cursor Preparser Parser Build Samples PropExec.

(** ** C66 *)
(** The file that is written for an accepted module is C, and it can be read in
    one way only: as the directives, declarations and definitions of the module,
    one after the other.  Provided that each of them survives printing
    ([plain_elem]: names are words, there is at least one member, enumerator or
    parameter before three dots, directives stay on their line, expressions as in
    C41). *)
Theorem C66_module_text_partial : forall types m p cm, translate m p = TrOk cm -> c_types types -> Forall (plain_elem types) (cm_elements cm) ->
  (exists ps us, pieces true (format_module cm) ps /\ c_file_of types ps us)
  /\ forall ps us, pieces true (format_module cm) ps -> c_file_of types ps us -> map unit_values us = map unit_values (map unit_of (cm_elements cm)).
Proof.
  intros types m p cm _ Ht Hp. destruct (module_printed types cm Hp) as (ps & H1 & H2). split; [eauto|].
  intros ps' us' H1' H2'. rewrite <- (pieces_unique _ _ _ H1 _ H1') in H2'. exact (file_unique types Ht _ _ H2' _ H2).
Qed.
(** Both modules of the sample project satisfy the conditions; they have 29 and 33
    elements. *)
Definition sample_types (s : str) : bool :=
  existsb (str_eqb s) (map lit ["int"; "char"; "void"; "size_t"; "struct"; "mod0_lib__num_t"; "mod0_lib__vec_t"; "vecp_t"]%string).
Example C66_example : c_types sample_types /\ forall i, i < 2 -> exists cm, translate (nth_mod i) (nth_params i) = TrOk cm
  /\ Forall (plain_elem sample_types) (cm_elements cm) /\ 26 <= List.length (cm_elements cm).
Proof.
  split.
  - intros w Hw. repeat (destruct Hw as [<-|Hw]; [vm_compute; reflexivity|]). destruct Hw.
  - intros [|[|i]] Hi; [| |lia]; (eexists; split; [vm_compute; reflexivity|]; split; [apply module_ok_sound; vm_compute; reflexivity|cbn; lia]).
Qed.
Print Assumptions C66_module_text_partial.

(** Not every accepted module has a text that is C: three dots without a
    parameter before them are printed as [(, ...void)]. *)
Definition dots_text : string := "int f(...) { return 1; } int main() { return f(); }".
Lemma line_head line text ps : directive line -> pieces true (L "#" ++ line ++ [10%N] ++ text) ps -> exists ps', ps = PLine line :: ps' /\ pieces true text ps'.
Proof.
  intros Hd H. inversion H as [f ws' Hw' E1 E2|f ws' t' s' text' ps1 Hw' Hh' Hs' Hp' E1 E2|f ws' line' text' ps1 Hw' Hf' Hd' Hp' E1 E2]; subst.
  - apply Forall_inv in Hw'. discriminate.
  - exfalso. destruct (spells_ink _ _ _ Hs') as (c & z & -> & Hc). cbn [app] in E2.
    apply (blank_cut ws' [] (z ++ text') (line ++ [10%N] ++ text) c 35%N) in E2; auto; [|apply Forall_nil]. destruct E2 as (_ & -> & _).
    apply Hh'. eapply spells_hash; [exact Hs'|reflexivity].
  - apply (blank_cut ws' [] (line' ++ [10%N] ++ text') (line ++ [10%N] ++ text) 35%N 35%N) in E2; auto; [|apply Forall_nil]. destruct E2 as (-> & _ & E2).
    apply line_cut in E2; [|apply Hd'|apply Hd]. destruct E2 as [-> ->]. eauto.
Qed.
Lemma lines_head types ls text : Forall directive ls -> forall ps us, pieces true (concat (map (fun l => L "#" ++ l ++ [10%N]) ls) ++ text) ps -> c_file_of types ps us ->
  exists ps' us', pieces true text ps' /\ c_file_of types ps' us'.
Proof.
  induction 1 as [|l ls Hl Hls IH]; intros ps us H Hf; [eauto|].
  assert (E : concat (map (fun l => L "#" ++ l ++ [10%N]) (l :: ls)) ++ text = L "#" ++ l ++ [10%N] ++ (concat (map (fun l => L "#" ++ l ++ [10%N]) ls) ++ text)).
  { cbn [map concat]. rewrite <- !app_assoc. reflexivity. }
  rewrite E in H.
  apply line_head in H; [|exact Hl]. destruct H as (ps' & -> & H).
  inversion Hf as [|s ps1 us1 H1 E1 E2|ts d ps1 us1 Hd H1 E1 E2]; subst; [eauto|].
  exfalso. pose proof (ext_nonempty _ _ _ Hd). destruct ts; [contradiction|discriminate].
Qed.
Lemma token_head fresh ws t s text ps : all blank ws -> ~ hash t -> spells t s text -> pieces fresh (ws ++ s ++ text) ps -> exists ps', ps = PTok t :: ps' /\ pieces false text ps'.
Proof.
  intros Hw Hh Hs H. destruct (spells_ink _ _ _ Hs) as (c0 & z0 & Es & Hc0).
  inversion H as [f ws' Hw' E1 E2|f ws' t' s' text' ps1 Hw' Hh' Hs' Hp' E1 E2|f ws' line' text' ps1 Hw' Hf' Hd' Hp' E1 E2]; subst.
  - apply Forall_app in Hw' as [_ Hw']. inversion Hw'. congruence.
  - destruct (spells_ink _ _ _ Hs') as (c & z & -> & Hc). cbn [app] in E2. apply blank_cut in E2; auto. destruct E2 as (-> & -> & E2).
    destruct (spells_unique _ _ _ _ _ _ Hs' Hs) as (-> & _ & ->); [cbn [app]; now rewrite E2|]. eauto.
  - exfalso. apply (blank_cut ws' ws (line' ++ [10%N] ++ text') (z0 ++ text) 35%N c0) in E2; auto. destruct E2 as (_ & <- & _).
    apply Hh. eapply spells_hash; [exact Hs|reflexivity].
Qed.
Lemma reads_head s toks rest : reads s toks rest -> Forall (fun t => ~ hash t) toks -> forall fresh ps, pieces fresh (s ++ rest) ps -> exists ps', ps = map PTok toks ++ ps'.
Proof.
  induction 1 as [ws rest Hw|ws t s text toks rest Hw Hs Hr IH]; intros Hh fresh ps H; [now exists ps|].
  rewrite <- !app_assoc in H. apply Forall_cons_iff in Hh as [Ht Hh]. apply token_head with (t := t) in H; auto. destruct H as (ps' & -> & H).
  destruct (IH Hh _ _ H) as (ps'' & ->). now exists ps''.
Qed.
(** No file goes on like this. *)
Lemma no_dots types text ps us : c_types types -> pieces true (L "static int f (," ++ text) ps -> ~ c_file_of types ps us.
Proof.
  intros Ht H Hf.
  assert (R : reads (L "static int f (,") [TWord (L "static"); TWord (L "int"); TWord (L "f"); TPunct "("; TPunct ","] text).
  { change (L "static int f (,") with (L "static" ++ L " " ++ L "int" ++ L " " ++ L "f" ++ L " " ++ lit "(" ++ lit ",").
    assert (W : forall w s ts, PlainCheck.word_ok w = true -> reads s ts text -> reads (w ++ L " " ++ s) (TWord w :: ts) text).
    { intros w s ts Hw Hs. apply reads_word; [now apply PlainCheck.word_ok_sound|cbn; tauto|now apply reads_space]. }
    apply (W (L "static")); [reflexivity|]. apply (W (L "int")); [reflexivity|]. apply (W (L "f")); [reflexivity|].
    apply reads_final; [cbn; tauto|]. apply reads_end. cbn. tauto. }
  apply (reads_head _ _ _ R) in H.
  - destruct H as (ps' & ->). inversion Hf as [|s ps1 us1 H1 E1 E2|ts d ps1 us1 Hd H1 E1 E2]; subst.
    apply (f_equal leading) in E1. rewrite !leading_app in E1. cbn [app] in E1.
    destruct (ext_cases _ _ _ Hd) as [G|(tb & b & tt & t & td & f & tr & g & -> & Hb & Htt & Htd & Hg & ->)].
    + destruct G; discriminate.
    + rewrite <- !app_assoc in E1. unfold c_static_of in Hb. destruct b; subst tb; cbn [app] in E1.
      * injection E1 as E1.
        destruct (shape_not types _ _ _ _ _ [L "int"; L "f"] "("%string (TPunct "," :: leading ps') Htt Htd (rest_stop _ _ _ _ Hg) E1) as [_ E2]; [discriminate|discriminate|]. clear E1. rename E2 into E1.
        assert (P : forall tp p q, c_params_of types tp p -> tp ++ q <> TPunct "," :: leading ps').
        { assert (Q : forall tp l q, c_param_list_of types tp l -> tp ++ q <> TPunct "," :: leading ps').
          { intros tp l q Hl E. destruct (param_list_first _ _ _ Hl) as (t1 & t0 & q0 & Ht0 & ->). rewrite <- app_assoc in E.
            pose proof (type_start_app' types t1 t0 (q0 ++ q) Ht0) as Hs. rewrite E in Hs. discriminate. }
          intros tp p q [|tp' l Hl|tp' l Hl]; [discriminate|now apply (Q _ l)|]. rewrite <- app_assoc. now apply (Q _ l). }
        destruct Hg as [ti v Hv|tp p Hp|tp p ti l Hp Hi]; [discriminate| |]; injection E1 as E1; rewrite <- app_assoc in E1; now apply (P _ _ _ Hp) in E1.
      * pose proof (type_start_app' types tt t (td ++ tr ++ leading ps1) Htt) as Hs. rewrite E1 in Hs. cbn [type_start] in Hs.
        pose proof (Ht "static"%string ltac:(cbn; tauto)) as Hx. cbn [lit] in Hx. unfold lit in Hx. cbn in Hx, Hs. rewrite Hx in Hs. discriminate.
  - repeat constructor; unfold hash; intros Hi; cbn in Hi; repeat (destruct Hi as [Hi|Hi]; [discriminate|]); exact Hi.
Qed.
Definition dots_lines : list str := map lit
  ["define _XOPEN_SOURCE 700"; "include <assert.h>"; "include <ctype.h>"; "include <errno.h>"; "include <limits.h>"; "include <math.h>"; "include <stdarg.h>";
   "include <stdbool.h>"; "include <stddef.h>"; "include <stdint.h>"; "include <stdio.h>"; "include <stdlib.h>"; "include <string.h>"; "include <time.h>";
   "include <setjmp.h>"; "include <signal.h>"; "define nelem(x) (sizeof (x)/sizeof (x)[0])"]%string.
Theorem C66_dots_refuted : exists cm, translate (module_in dots_text) (params_in dots_text) = TrOk cm
  /\ forall types ps us, c_types types -> pieces true (format_module cm) ps -> ~ c_file_of types ps us.
Proof.
  eexists. split; [vm_compute; reflexivity|]. intros types ps us Ht H Hf.
  match type of H with pieces _ ?x _ => let y := eval vm_compute in x in
    let r := eval vm_compute in (skipn (List.length (concat (map (fun l => L "#" ++ l ++ [10%N]) dots_lines)) + 15) y) in
    assert (E : x = concat (map (fun l => L "#" ++ l ++ [10%N]) dots_lines) ++ L "static int f (," ++ r) by (vm_compute; reflexivity) end.
  rewrite E in H. apply (lines_head types) with (us := us) in H; [|unfold dots_lines; apply (forallb_sound directive_ok); [exact directive_ok_sound|vm_compute; reflexivity]|exact Hf].
  destruct H as (ps' & us' & H & Hf'). exact (no_dots types _ _ _ Ht H Hf').
Qed.

(** Names that are words of the C language are not renamed. *)
Definition keyword_text : string := "int auto = 1; int main() { return auto; }".
Lemma no_keyword types text ps us : c_types types -> pieces true (L "static int auto = " ++ text) ps -> ~ c_file_of types ps us.
Proof.
  intros Ht H Hf.
  assert (R : reads (L "static int auto = ") [TWord (L "static"); TWord (L "int"); TWord (L "auto"); TPunct "="] text).
  { change (L "static int auto = ") with (L "static" ++ L " " ++ L "int" ++ L " " ++ L "auto" ++ L " " ++ lit "=" ++ L " ").
    assert (W : forall w s ts, PlainCheck.word_ok w = true -> reads s ts text -> reads (w ++ L " " ++ s) (TWord w :: ts) text).
    { intros w s ts Hw Hs. apply reads_word; [now apply PlainCheck.word_ok_sound|cbn; tauto|now apply reads_space]. }
    apply (W (L "static")); [reflexivity|]. apply (W (L "int")); [reflexivity|]. apply (W (L "auto")); [reflexivity|].
    apply (reads_tok (TPunct "=") (lit "=") (L " ") [] text); [apply (spells_spaced "="); cbn; tauto|apply reads_blank; repeat constructor]. }
  apply (reads_head _ _ _ R) in H.
  - destruct H as (ps' & ->). inversion Hf as [|s ps1 us1 H1 E1 E2|ts d ps1 us1 Hd H1 E1 E2]; subst.
    apply (f_equal leading) in E1. rewrite !leading_app in E1. cbn [app] in E1.
    destruct (ext_cases _ _ _ Hd) as [G|(tb & b & tt & t & td & f & tr & g & -> & Hb & Htt & Htd & Hg & ->)].
    + destruct G; discriminate.
    + rewrite <- !app_assoc in E1. unfold c_static_of in Hb. destruct b; subst tb; cbn [app] in E1.
      * injection E1 as E1.
        destruct (shape_not types _ _ _ _ _ [L "int"; L "auto"] "="%string (leading ps') Htt Htd (rest_stop _ _ _ _ Hg) E1) as [_ E2]; [discriminate|discriminate|].
        rewrite E2, app_assoc in E1. apply (app_inv_tail (TPunct "=" :: leading ps') (tt ++ td) [TWord (L "int"); TWord (L "auto")]) in E1.
        assert (X : exists w r, tt = TWord w :: r) by (destruct Htt; cbn [map]; eauto). destruct X as (w & r & ->). injection E1 as -> E1.
        destruct Htd as [n x ti is_ Hx Hi]. destruct r as [|y r]; [|injection E1 as -> E1; destruct r; [|discriminate]; destruct n; discriminate].
        destruct n; [|discriminate]. cbn [repeat app] in E1. injection E1 as -> _. apply (proj2 Hx). cbn. tauto.
      * pose proof (type_start_app' types tt t (td ++ tr ++ leading ps1) Htt) as Hs. rewrite E1 in Hs. cbn [type_start] in Hs.
        pose proof (Ht "static"%string ltac:(cbn; tauto)) as Hx. cbn [lit] in Hx. unfold lit in Hx. cbn in Hx, Hs. rewrite Hx in Hs. discriminate.
  - repeat constructor; unfold hash; intros Hi; cbn in Hi; repeat (destruct Hi as [Hi|Hi]; [discriminate|]); exact Hi.
Qed.
Theorem C66_keyword_refuted : exists cm, translate (module_in keyword_text) (params_in keyword_text) = TrOk cm
  /\ forall types ps us, c_types types -> pieces true (format_module cm) ps -> ~ c_file_of types ps us.
Proof.
  eexists. split; [vm_compute; reflexivity|]. intros types ps us Ht H Hf.
  match type of H with pieces _ ?x _ => let y := eval vm_compute in x in
    let r := eval vm_compute in (skipn (List.length (concat (map (fun l => L "#" ++ l ++ [10%N]) dots_lines)) + 18) y) in
    assert (E : x = concat (map (fun l => L "#" ++ l ++ [10%N]) dots_lines) ++ L "static int auto = " ++ r) by (vm_compute; reflexivity) end.
  rewrite E in H. apply (lines_head types) with (us := us) in H; [|unfold dots_lines; apply (forallb_sound directive_ok); [exact directive_ok_sound|vm_compute; reflexivity]|exact Hf].
  destruct H as (ps' & us' & H & Hf'). exact (no_keyword types _ _ _ Ht H Hf').
Qed.
Print Assumptions C66_dots_refuted.
Print Assumptions C66_keyword_refuted.
