(** * FiresSpec.v : vocabulary for C72, C73 *)
From Verif Require Export LearnSpec.
(** no feature is tested twice *)
Definition single (cs : list cond) : Prop := forall a c b d t, cs = a ++ c :: b ++ d :: t -> py_eq (cfeat c) (cfeat d) = false.
