(** * Demo.v : small concrete data used by the non-vacuity examples *)
From Verif Require Export Spec.

Definition s_ (x : String.string) : pyval := PStr (lit x).
Definition c_ (f v : String.string) : cond := mkcond (s_ f) (s_ v).
(** three rows, columns outlook / wind / temp *)
Definition demo : frame :=
  mkframe [s_ "outlook"; s_ "wind"; s_ "temp"]
    [ mkrow 10 [s_ "sunny"; s_ "weak"; PInt 20];
      mkrow 11 [s_ "rain"; s_ "strong"; PInt 15];
      mkrow 12 [s_ "sunny"; s_ "strong"; PNaN] ].
Definition demo_rules : list rule :=
  [ Rule_ [c_ "outlook" "sunny"; c_ "wind" "weak"]; Rule_ [mkcond (s_ "temp") (PInt 15)]; Rule_ [c_ "outlook" "rain"] ].

(** boolean checks that imply the table hypotheses *)
Definition good_frameb (fr : frame) : bool :=
  forallb (fun r => length (rcells r) =? length (fcols fr)) (frows fr)
  && forallb (fun ij => (fst (fst ij) =? fst (snd ij)) || negb (py_eq (snd (fst ij)) (snd (snd ij))))
       (list_prod (combine (seq 0 (length (fcols fr))) (fcols fr)) (combine (seq 0 (length (fcols fr))) (fcols fr))).
