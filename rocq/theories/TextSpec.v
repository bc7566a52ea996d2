(** * TextSpec.v : vocabulary for printed rules. Specification only; [join], [is_ws], [ch] are from Py.v. *)
From Verif Require Export Text Spec.
Open Scope nat_scope.

(** s is the parts written one after the other with c between them, and c occurs in no part *)
Definition separated (c : ascii) (s : str) (parts : list str) : Prop :=
  s = join [c] parts /\ parts <> [] /\ forall p, In p parts -> ~ In c p.
(** t is s without its leading and trailing white space *)
Definition trimmed (s t : str) : Prop :=
  exists l r, s = l ++ t ++ r /\ Forall (fun x => is_ws x = true) l /\ Forall (fun x => is_ws x = true) r /\
    (forall x u, t = x :: u -> is_ws x = false) /\ (forall x u, t = u ++ [x] -> is_ws x = false).
(** s is written feature=value *)
Definition reads_cond (s : str) (c : cond) : Prop :=
  exists a b f v, s = a ++ ch "=" :: b /\ ~ In (ch "=") a /\ ~ In (ch "=") b /\ trimmed a f /\ trimmed b v /\ c = mkcond (PStr f) (PStr v).
(** s, without square brackets, is written cond ^ cond ^ ... *)
Definition no_brackets (s t : str) : Prop := picks (fun x => x <> ch "[" /\ x <> ch "]") s t.
Definition reads_conds (s : str) (cs : list cond) : Prop :=
  exists t parts, no_brackets s t /\ separated (ch "^") t parts /\ Forall2 reads_cond parts cs.
Definition true_text (s : str) : Prop := In s [$"True"; $"[True]"; $"[]"].
Definition reads_rule (s : str) (r : rule) : Prop :=
  (true_text s /\ r = Rule_ []) \/ (~ true_text s /\ exists cs, reads_conds s cs /\ r = Rule_ cs).
Definition empty_text (s : str) : Prop := In s [[]; $"[]"; $"[[]]"].
Definition reads_ruleset (s : str) (rs : list rule) : Prop :=
  (empty_text s /\ rs = []) \/ (~ empty_text s /\ exists parts, separated (ch "V") s parts /\ Forall2 reads_rule parts rs).

(** plain text: printable ASCII without blanks, commas, carets, equal signs, brackets, single quotes, backslashes and capital V *)
Definition plain_char (c : ascii) : Prop :=
  33 <= nat_of_ascii c <= 126 /\ ~ In c [ch ","; ch "^"; ch "="; ch "["; ch "]"; squote; ascii_of_nat 92; ch "V"].
Definition plain (v : pyval) : Prop := exists s, v = PStr s /\ Forall plain_char s.
Definition plain_rule (r : rule) : Prop := conds r <> [] /\ forall c, In c (conds r) -> plain (cfeat c) /\ plain (cval c).
