(** Messages about a token that was not expected. *)
From Verif Require Import Base Buf Lexer Nodes.

(** Line ends and tabs are shown by their names. *)
Definition on_one_line (s : str) : str :=
  List.concat (map (fun c => if N.eqb c 13 then L "\r" else if N.eqb c 10 then L "\n" else if N.eqb c 9 then L "\t" else [c]) s).
(** How a token is shown: its kind and its content, which is cut behind 37 bytes if it has
    more than 40. *)
Inductive shown_token : token -> str -> Prop :=
| Shown_kind k p : shown_token (mkTok k [] p) (L "[" ++ lit k ++ L "]")
| Shown_whole k c p : c <> [] -> blen c <= 40 -> shown_token (mkTok k c p) (L "[" ++ lit k ++ L ", " ++ on_one_line c ++ L "]")
| Shown_cut k a b p : 40 < blen (a ++ b) -> blen a = 37 -> shown_token (mkTok k (a ++ b) p) (L "[" ++ lit k ++ L ", " ++ on_one_line a ++ L "..." ++ L "]").
(** Notes are put before a message. *)
Definition noted (note : option string) (m : str) : str := match note with Some s => lit s ++ L ": " ++ m | None => m end.
