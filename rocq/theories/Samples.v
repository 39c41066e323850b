(** A small project used by the examples beside the theorems. *)
From Verif Require Import Base Buf Lexer Nodes Resolve Cursor Preparser Parser CAst Translator Build.

Definition ascii_table : Unicode := {| uni_alnum := fun _ => false |}.

(** A file system with the given files. *)
Definition world_of (files : list (str * str)) : world :=
  mkWorld (L "home")
    (fun p => match assoc p files with Some _ => true | None => false end)
    (fun p => match assoc p files with Some t => inl t | None => inr (L "No such file") end).

Definition lib_text : string :=
"pub enum { RED, GREEN = 4 }
pub typedef int num_t;
pub typedef { num_t x, y; int tags[2]; } vec_t;
typedef vec_t *vecp_t;
int helper(int k) {
  return k + GREEN;
}
pub int add(int a, b) {
  vec_t v = {.x = a, .y = b};
  vecp_t p = &v;
  return helper(p->x) + p->y - GREEN;
}
".
Definition main_text : string :=
"#import lib.c
#define LIMIT 10
int counter = 0;
int twice(int x) { return 2 * x; }
int main(int argc, char *argv[]) {
  int total = argc;
  for (int i = 0; i < LIMIT; i++) {
    total = lib.add(total, i);
  }
  while (counter < total) {
    counter++;
  }
  switch (total) {
    case lib.RED, 7: { panic(""red %d"", total); }
    default: { counter = twice(1); }
  }
  switch str (argv[0]) {
    case ""a"", ""b"": { counter = 2; }
    case ""c"": { counter = 3; }
    default: { puts(""?""); }
  }
  lib.num_t *z = calloc!(LIMIT, sizeof(lib.num_t));
  if (*z == 3) {
    return 1;
  } else {
    free(z);
  }
  return counter;
}
".
Definition sample_world : world := world_of [(L "p/lib.c", lit lib_text); (L "p/main.c", lit main_text)].
Definition sample_fuel : nat := 600.
Definition sample_project : bout project := @parse_project ascii_table sample_world sample_fuel (L "p/main.c").

Definition project_of (r : bout project) : project :=
  match r with BOk p => p | _ => mkProject [] [] [] end.
Definition the_project : project := Eval vm_compute in project_of sample_project.
Definition nth_mod (i : nat) : module_ := nth i (pr_mods the_project) (mkModule [] (mkExports [] [] [] [])).
Definition nth_head (i : nat) : modinfo := nth i (pr_heads the_project) (mkInfo [] [] [] []).
(** The parameters of the translation of the i-th module. *)
Definition nth_params (i : nat) : trparams :=
  mkParams (nth_head i) (pr_heads the_project) (firstn i (pr_cmods the_project)) (pr_mods the_project).

Lemma sample_built : exists p, sample_project = BOk p /\ List.length (pr_mods p) = 2.
Proof. exists the_project. split; vm_compute; reflexivity. Qed.

Definition ok {A} (r : tout A) : bool := match r with TrOk _ => true | _ => false end.
Lemma sample_translates : ok (translate (nth_mod 0) (nth_params 0)) = true /\ ok (translate (nth_mod 1) (nth_params 1)) = true.
Proof. split; vm_compute; reflexivity. Qed.

(** A project of one file, and the messages it is rejected with. *)
Definition single (text : string) : bout project :=
  @parse_project ascii_table (world_of [(L "p/main.c", lit text)]) sample_fuel (L "p/main.c").
Definition built {A} (r : bout A) : bool := match r with BOk _ => true | _ => false end.
Definition messages {A} (r : bout A) : list str :=
  match r with BErrs l => map be_msg l | _ => [] end.
(** The same beside the library module of the sample project. *)
Definition beside (text : string) : bout project :=
  @parse_project ascii_table (world_of [(L "p/lib.c", lit lib_text); (L "p/main.c", lit text)])
                 sample_fuel (L "p/main.c").
Definition crashes {A} (r : bout A) : bool := match r with BPanic _ => true | _ => false end.
