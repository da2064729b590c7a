(** Model of tokenize: /repo/src/util/util.h:183-265.  A character is a number, a string a list. *)
From Coq Require Import NArith List Bool.
Import ListNotations.

(** util.h:183-265: the characters and strings of tokenize. *)
Definition char := N.
Definition str := list char.

(** std::string::find_first_of(ch) != npos. *)
Definition has (s : str) (ch : char) : bool := existsb (N.eqb ch) s.

(** util.h:196-205: the local variables that survive an iteration; [t_ch] is the last character. *)
Record tok := { t_ch : char; t_current_quote : char; t_quoted : bool; t_token : str; t_result : list str }.

(** util.h:209-255: one iteration of the loop. *)
Definition tok_step (delimiters : str) (keepBlankFields : bool) (quote : str) (st : tok) (ch : char) : tok :=
  let '(quoted, current_quote, add_char) :=
    if negb (match quote with [] => true | _ => false end) && has quote ch then
      if negb (t_quoted st) then (true, ch, false)
      else if N.eqb (t_current_quote st) ch then (false, 0%N, false)
      else (t_quoted st, t_current_quote st, true)
    else (t_quoted st, t_current_quote st, true) in
  let '(token_complete, add_char) :=
    if negb (match delimiters with [] => true | _ => false end) && negb quoted then
      if has delimiters ch then (true, false) else (false, add_char)
    else (false, add_char) in
  let token := if add_char then t_token st ++ [ch] else t_token st in
  if token_complete then
    let result :=
      match token with
      | [] => if keepBlankFields then t_result st ++ [[]] else t_result st
      | _ => t_result st ++ [token]
      end in
    {| t_ch := ch; t_current_quote := current_quote; t_quoted := quoted; t_token := []; t_result := result |}
  else {| t_ch := ch; t_current_quote := current_quote; t_quoted := quoted; t_token := token; t_result := t_result st |}.

(** util.h:183-265 tokenize. *)
Definition tokenize (s : str) (delimiters : str) (keepBlankFields : bool) (quote : str) : list str :=
  match delimiters with
  | [] => []
  | _ =>
      let st := fold_left (tok_step delimiters keepBlankFields quote) s
        {| t_ch := 0%N; t_current_quote := 0%N; t_quoted := false; t_token := []; t_result := [] |} in
      match t_token st with
      | [] => if keepBlankFields && has delimiters (t_ch st) then t_result st ++ [[]] else t_result st
      | _ => t_result st ++ [t_token st]
      end
  end.

(** util.h:268-272 remove_slash; at() on an empty string throws, [None]. *)
Definition remove_slash (s : str) : option str :=
  match rev s with
  | [] => None
  | c :: r => Some (if N.eqb c 47%N then rev r else s)
  end.
