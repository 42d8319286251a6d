(** XPath 1.0 section 3.4: comparisons. *)
From Coq Require Import SpecFloat.
From Verif.Model Require Import Base XNode XNodeSet XCompare.

(** Comparing numbers: IEEE 754.  NaN is not equal to, less than or greater than anything. *)
Definition numbers (op : relop) (a b : spec_float) : Prop :=
  match op with
  | OpEq => SFcompare a b = Some Eq
  | OpNe => SFcompare a b <> Some Eq
  | OpLt => SFcompare a b = Some Lt
  | OpLe => SFcompare a b = Some Lt \/ SFcompare a b = Some Eq
  | OpGt => SFcompare a b = Some Gt
  | OpGe => SFcompare a b = Some Gt \/ SFcompare a b = Some Eq
  end.
(** Comparing two strings: = and != on the strings themselves, the others on numbers. *)
Definition strings (r : reader) (op : relop) (a b : str) : Prop :=
  match op with OpEq => a = b | OpNe => a <> b | _ => numbers op (num r a) (num r b) end.
Definition of_bool (b : bool) : spec_float := if b then one else zero.
(** boolean(v): a number is true unless zero or NaN, a string or node set unless empty. *)
Definition truth (v : value) : bool :=
  match v with
  | VBool b => b
  | VNum n => match n with S754_zero _ | S754_nan => false | _ => true end
  | VStr s => match s with [] => false | _ => true end
  | VSet s => match s_nodes s with [] => false | _ => true end
  end.
Definition number (r : reader) (v : value) : spec_float :=
  match v with VBool b => of_bool b | VNum n => n | VStr s => num r s | VSet _ => S754_nan end.

(** A comparison with a node set is true when some node in it makes it true, and with two when
    some pair does, except that a node set is compared to a boolean as a boolean.  Otherwise =
    and != compare as booleans if one is a boolean, else as numbers if one is a number, else as
    strings, and the others compare numbers. *)
Definition compares (r : reader) (op : relop) (v w : value) : Prop :=
  match v, w with
  | VSet a, VSet b => exists x y, In x (s_nodes a) /\ In y (s_nodes b) /\ strings r op (text_of r x) (text_of r y)
  | VSet _, VBool _ | VBool _, VSet _ => numbers op (of_bool (truth v)) (of_bool (truth w))
  | VSet a, VNum n => exists x, In x (s_nodes a) /\ numbers op (num r (text_of r x)) n
  | VNum n, VSet b => exists y, In y (s_nodes b) /\ numbers op n (num r (text_of r y))
  | VSet a, VStr s => exists x, In x (s_nodes a) /\ strings r op (text_of r x) s
  | VStr s, VSet b => exists y, In y (s_nodes b) /\ strings r op s (text_of r y)
  | VBool _, _ | _, VBool _ =>
      match op with OpEq => truth v = truth w | OpNe => truth v <> truth w | _ => numbers op (number r v) (number r w) end
  | VStr s, VStr t => strings r op s t
  | _, _ => numbers op (number r v) (number r w)
  end.
(** Where the code and the specification agree. *)
Definition equality (op : relop) : bool := match op with OpEq | OpNe => true | _ => false end.
Definition settled (op : relop) (v w : value) : Prop :=
  match v, w with
  | VSet a, VSet b => equality op = true \/ (s_nodes a <> [] /\ s_nodes b <> [])
  | VSet _, VBool _ | VBool _, VSet _ => equality op = true
  | _, _ => True
  end.
