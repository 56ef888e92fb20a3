(** * Parse: from styled passages to words.  /repo/src/pdfje/typeset/parse.py *)
From Verif Require Import Base Num Fonts State Words.
Open Scope nat_scope.

Section Parse.
Context {NUM : Num} {ENV : Env NUM}.

(** parse.py 14-16: the alternatives of [_WORD_RE] other than a run of spaces:
    hyphen, ZERO WIDTH SPACE, EM DASH.  (The last alternative, a look-ahead for an
    em dash followed by a word character, is never reached: the em dash itself
    matches before it.) *)
Definition break_char (c : char) : bool := ((c =? 45) || (c =? 8203) || (c =? 8212))%N.
Definition is_space (c : char) : bool := (c =? 32)%N.
(** 14-16: the first match of [_WORD_RE] in a text without newlines ([.] does not
    match a newline; [splitlines] has removed them), and the text after it *)
Fixpoint split_word (t : str) : option (str * str) :=
  match t with
  | [] => None
  | c :: r =>
      if is_space c then let (sp, r') := take_while is_space r in Some (c :: sp, r')
      else if break_char c then Some ([c], r)
      else option_map (fun p => (c :: fst p, snd p)) (split_word r)
  end.

(** 55-77: [_parse_simple_words] on [txt[pos:]]: the words yielded, and the value
    returned (remaining text, or the final word).  [fuel] bounds the number of
    matches; a match is never empty. *)
Fixpoint simple_words (fuel : nat) (t : str) (st : state) (prev : option char)
  : res (list word * (str + word)) :=
  match fuel with
  | O => Err EFuel
  | S fuel' =>
      match split_word t with
      | None => Ok ([], inl t)
      | Some (w, r) =>
          do x <- word_new w st prev;
          match r with
          | [] => Ok ([], inr x)
          | _ => do y <- simple_words fuel' r st (Some (str_last w));
                 Ok (x :: fst y, snd y)
          end
      end
  end.

(** 83-95: the parts of [_complete_word]: what follows the head up to the first
    break, with the passage in which it was found: (text after the break) *)
Fixpoint take_parts (it : list passage) : list (command * str) * option (str * list passage) :=
  match it with
  | [] => ([], None)
  | (cmd, t) :: it' =>
      match split_word t with
      | Some (w, r) => ([(cmd, w)], Some (r, it'))
      | None => let (ps, x) := take_parts it' in ((cmd, t) :: ps, x)
      end
  end.
(** 88-90: one trailing space is cut off the last part *)
Definition ends_with_space (w : str) : bool :=
  match w with [] => false | _ => is_space (str_last w) end.
Definition cut_space (w : str) : str := if ends_with_space w then removelast w else w.
Definition cut_parts (parts : list (command * str)) : list (command * str) :=
  match rev parts with
  | [] => []
  | (c, w) :: r => rev ((c, cut_space w) :: r)
  end.
(** 107-123: the segments.  [seg] is the open segment, [cmds] the commands since. *)
Fixpoint segments (parts : list (command * str)) (seg : slug) (prev : option char)
         (st : state) (cmds : list command) : list (slug * command) * option char * state :=
  match parts with
  | [] => ([(seg, squash cmds)], prev, st)
  | (cmd, t) :: r =>
      let st' := apply cmd st in
      let prev' := if kerns_with st st' then prev else None in
      match t with
      | [] => segments r seg prev' st' (cmds ++ [cmd])
      | _ => let '(l, p, s) := segments r (slug_new t st' prev') (Some (str_last t)) st' [] in
             ((seg, squash (cmds ++ [cmd])) :: l, p, s)
      end
  end.
(** 80-136: [_complete_word]; [prev] is always None.  Result: the word and, unless
    the passages are used up, the text after it and the remaining passages. *)
Definition complete_word (it : list passage) (head : str) (st : state)
  : res (word * option (str * list passage)) :=
  let (parts, next) := take_parts it in
  match parts with
  | [] => do w <- word_new head st None; Ok (w, None)
  | _ =>
      let space := match next with
                   | Some _ => ends_with_space (snd (List.last parts (NoOp, [])))
                   | None => false
                   end in
      let parts' := match next with Some _ => cut_parts parts | None => parts end in
      let seg := slug_new head st None in
      let '(segs, prev, st') := segments parts' seg (Some (slug_last seg)) st [] in
      let tail := if space then Some (tspace_new st' prev) else None in
      Ok (mkWord [BMixed segs st'] tail st', next)
  end.

(** 27-52: [_parse]: the words and whether all passages were consumed.  The loop
    ends at a passage without text ([while txt]), abandoning the passages after it. *)
Fixpoint parse_loop (fuel : nat) (it : list passage) (st : state) (txt : str)
  : res (list wordlike * bool) :=
  match fuel with
  | O => Err EFuel
  | S fuel' =>
      match txt with
      | [] => Ok ([], false)
      | _ =>
          do x <- simple_words (S (List.length txt)) txt st None;
          let (ws, last) := x in
          let words := map WWord ws in
          (* the end of the loop body: 42-51 *)
          let finish (last : word) (st : state) (it : list passage) : res (list wordlike * bool) :=
            match it with
            | [] => Ok (words ++ [WWord last], true)
            | (cmd, t) :: it' =>
                do y <- parse_loop fuel' it' (apply cmd st) t;
                Ok (words ++ with_cmd (WWord last) cmd :: fst y, snd y)
            end in
          match last with
          | inr w => finish w st it
          | inl head =>
              do y <- complete_word it head st;
              let (w, next) := y in
              match next with
              | None => Ok (words ++ [WWord w], true)
              | Some ([], it') => finish w (w_state w) it'
              | Some (r, it') =>
                  do z <- parse_loop fuel' it' (w_state w) r;
                  Ok (words ++ WWord w :: fst z, snd z)
              end
          end
      end
  end.

(** 139-148: [_fold_commands]: the leading commands up to the first text *)
Fixpoint fold_commands (it : list passage) (st : state) (buf : list command)
  : command * option (str * list passage) * state :=
  match it with
  | [] => (squash buf, None, st)
  | (cmd, t) :: it' =>
      let st' := apply cmd st in
      match t with
      | [] => fold_commands it' st' (buf ++ [cmd])
      | _ => (squash (buf ++ [cmd]), Some (t, it'), st')
      end
  end.
(** 19-24: [into_words], with a flag whether the passages were all consumed *)
Definition into_words (ps : list passage) (st : state) : res (command * list wordlike * bool) :=
  let '(cmd, x, st') := fold_commands ps st [] in
  match x with
  | None => Ok (cmd, [], true)
  | Some (t, it) =>
      do y <- parse_loop (S (List.length it)) it st' t;
      Ok (cmd, fst y, snd y)
  end.
End Parse.
