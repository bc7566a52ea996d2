(** * Text.v : printing and parsing of conditions, rules and rulesets (base.py) *)
From Verif Require Export Rules.

(** base.py:338-348 [Rule.__str__] *)
Definition rule_str (r : rule) : str :=
  match conds r with
  | [] => $"[True]"
  | cs => del_char (ch " ") (del_char squote (sub_char (ch ",") (ch "^") (str_of_list (map cond_str cs))))
  end.

(** base.py:30-31 [Ruleset.__str__] *)
Definition rs_str (rs : list rule) : str := $"[" ++ join ($" V ") (map rule_str rs) ++ $"]".

(** base.py:43-59 [Ruleset.truncstr] *)
Definition rs_truncstr (limit : Z) (left_ right_ : bool) (rs : list rule) : res str :=
  p <- trunc_rules limit left_ right_ rs ;;
  Ok (if (limit <? Z.of_nat (length rs))%Z
      then if left_ then rs_str p ++ $"..." else $"..." ++ rs_str p
      else rs_str p).

(** [s.replace(c, t)] for a character and a text *)
(* base.py:83-92: the replacements of out_pretty, character by character *)
Definition expand_char (c : ascii) (t : str) (s : str) : str := flat_map (fun x => if Ascii.eqb x c then t else [x]) s.
(** base.py:83-92 [Ruleset.out_pretty]: the text that is printed (without print's final newline) *)
Definition rs_pretty (rs : list rule) : str :=
  expand_char (ch "^") ($" ^ ") (del_char squote (expand_char (ch ",") ($" V" ++ [ascii_of_nat 10]) (del_char (ch " ") (str_of_list (map rule_str rs))))).

(** base.py:458-465 [cond_fromstr] *)
Definition cond_fromstr (s : str) : res cond :=
  match map strip (split1 (ch "=") s) with
  | [a; c] => Ok (mkcond (PStr a) (PStr c))
  | _ => Err ValueError
  end.

(** base.py:468-479 [rule_fromstr]. [not str] tests the builtin type, so it is always False and "" is not special-cased.
    utils.py:8-12 [drop_chars] removes brackets. Any failure inside is re-raised as ValueError. *)
Definition rule_fromstr (s : str) : res rule :=
  if str_eqb s ($"True") || str_eqb s ($"[True]") || str_eqb s ($"[]") then Ok (Rule_ [])
  else match mapM cond_fromstr (split1 (ch "^") (del_char (ch "]") (del_char (ch "[") s))) with
       | Ok cs => Ok (Rule_ cs)
       | Err _ => Err ValueError
       end.

(** base.py:482-495 [ruleset_fromstr] *)
Definition ruleset_fromstr (s : str) : res (list rule) :=
  if str_eqb s [] || str_eqb s ($"[]") || str_eqb s ($"[[]]") then Ok []
  else match mapM rule_fromstr (split1 (ch "V") s) with
       | Ok rs => Ok rs
       | Err _ => Err ValueError
       end.

(** The objects accepted by ascond / asrule / asruleset. *)
(* what the user may pass as a rule or condition, base.py:498-555 *)
Inductive obj :=
| OCond (c : cond) | ORule (r : rule) | ORuleset (rs : list rule) | OStr (s : str)
| OClf (fitted : option (list rule))   (* a wittgenstein classifier, fitted or not *)
| OSeq (items : list obj)              (* list / tuple *)
| ONone | OOther.                      (* OOther: some other truthy non-iterable object *)

(** base.py:498-513 [ascond] *)
Definition ascond (o : obj) : res cond :=
  match o with
  | OCond c => Ok c
  | OStr s => cond_fromstr s
  | OSeq [OStr a; OStr b] => Ok (mkcond (PStr a) (PStr b))
  | _ => Err TypeError
  end.

(** base.py:516-530 [asrule]; for a truthy non-iterable object no branch applies and Python returns None ([Ok None]) *)
Definition asrule (o : obj) : res (option rule) :=
  match o with
  | ORule r => Ok (Some r)
  | OStr s => r <- rule_fromstr s ;; Ok (Some r)
  | ONone | OSeq [] => Ok (Some (Rule_ []))
  | ORuleset [] => Ok (Some (Rule_ []))          (* [not ruleset] uses __len__ *)
  | OSeq items => match mapM ascond items with
                  | Ok cs => Ok (Some (Rule_ cs))
                  | Err _ => Err TypeError end
  | _ => Ok None
  end.

(** base.py:533-555 [asruleset] *)
Definition asruleset (o : obj) : res (list rule) :=
  match o with
  | ORuleset rs => Ok rs
  | OStr s => ruleset_fromstr s
  | OClf (Some rs) => Ok rs
  | OClf None => Ok []
  | ONone | OSeq [] => Ok []
  | ORule r => match conds r with [] => Ok [] | _ => Err TypeError end   (* an empty Rule is falsy; a Rule has no __iter__ *)
  | OSeq items =>
      match mapM asrule items with
      | Ok rs => match fold_right (fun o acc => match o, acc with Some r, Some l => Some (r :: l) | _, _ => None end) (Some []) rs with
                 | Some l => Ok l
                 | None => Err TypeError   (* a None rule would be stored; rejected here (simplification) *)
                 end
      | Err _ => Err TypeError
      end
  | _ => Err TypeError
  end.
