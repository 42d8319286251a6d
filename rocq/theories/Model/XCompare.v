(** XPath values and their comparison.
    include/XPath/impl/xpath_object.hpp, include/XPath/impl/xpath_value.hpp.
    Doubles are SpecFloat's IEEE numbers, without NaN payloads. *)
From Verif.Model Require Export XNumber.
From Verif.Model Require Import Base Containers XNode XNodeSet.

(** The value classes, xpath_value.hpp:59-199. *)
Inductive value := VBool (b : bool) | VNum (n : spec_float) | VStr (s : str) | VSet (s : nodeset).




(** What the comparisons use from elsewhere: the number a string stands for (stringAsNumber,
    xpath_object.hpp:419-436, a boost::lexical_cast), the text of a number (NumericValue::asString,
    xpath_value.hpp:105-114), and the string value of a node (nodeStringValue; the model takes
    one that throws no exception). *)
Record reader := Reader { num : str -> spec_float; show : spec_float -> str; text_of : xnode -> str }.

(** asBool, xpath_value.hpp:73, 98-103, 142, 173-176. *)
Definition as_bool (v : value) : bool :=
  match v with
  | VBool b => b
  | VNum n => if is_nan n then false else negb (SFeqb n zero)
  | VStr s => match s with [] => false | _ => true end
  | VSet s => set_as_bool s
  end.
(** asString, xpath_value.hpp:75, 105-114, 147, 181-186; [top] is the string value of the set's
    first node in document order, which XNodeSet.v models. *)
Definition as_string (r : reader) (top : nodeset -> str) (v : value) : str :=
  match v with
  | VBool b => if b then [116; 114; 117; 101] else [102; 97; 108; 115; 101]
  | VNum n => show r n
  | VStr s => s
  | VSet s => top s
  end.
(** asNumber, xpath_value.hpp:74, 104, 143-146, 177-180. *)
Definition as_number (r : reader) (top : nodeset -> str) (v : value) : spec_float :=
  match v with
  | VBool b => if b then one else zero
  | VNum n => n
  | VStr s => num r s
  | VSet s => num r (top s)
  end.

(** nodeNumberValue, xpath_object.hpp:484-488. *)
Definition node_number (r : reader) (x : xnode) : spec_float := num r (text_of r x).

(** nodeSetsCompare, xpath_object.hpp:531-560, as nodeSetsEqual and nodeSetsNotEqual (562-576)
    use it.  The first loop compares the first left value with each right value; the second
    looks the other left values up among the right values. *)
Definition node_sets_equal (r : reader) (a b : nodeset) : bool :=
  match s_nodes a, s_nodes b with
  | [], _ | _, [] => false
  | x :: l, ys =>
      if existsb (fun y => str_eqb (text_of r x) (text_of r y)) ys then true
      else existsb (fun z => existsb (fun y => str_eqb (text_of r z) (text_of r y)) ys) l
  end.
Definition node_sets_not_equal (r : reader) (a b : nodeset) : bool :=
  match s_nodes a, s_nodes b with
  | [], _ | _, [] => false
  | x :: l, ys =>
      if existsb (fun y => negb (str_eqb (text_of r x) (text_of r y))) ys then true
      else existsb (fun z => negb (existsb (fun y => str_eqb (text_of r z) (text_of r y)) ys)) l
  end.
(** nodeSetAndValueEqual, xpath_object.hpp:578-605, and nodeSetAndValueNotEqual, 607-634; None
    is the exception of the default case. *)
Definition set_and_value_equal (r : reader) (s : nodeset) (v : value) : option bool :=
  match v with
  | VBool b => Some (Bool.eqb (set_as_bool s) b)
  | VStr t => Some (existsb (fun x => str_eqb (text_of r x) t) (s_nodes s))
  | VNum n => Some (existsb (fun x => SFeqb (node_number r x) n) (s_nodes s))
  | VSet _ => None
  end.
Definition set_and_value_not_equal (r : reader) (s : nodeset) (v : value) : option bool :=
  match v with
  | VBool b => Some (negb (Bool.eqb (set_as_bool s) b))
  | VStr t => Some (existsb (fun x => negb (str_eqb (text_of r x) t)) (s_nodes s))
  | VNum n => Some (existsb (fun x => negb (SFeqb (node_number r x) n)) (s_nodes s))
  | VSet _ => None
  end.
(** minValue, xpath_object.hpp:636-649, and maxValue, 651-664.  None: ns[0] of an empty set,
    which is undefined. *)
Definition min_value (r : reader) (s : nodeset) : option spec_float :=
  match s_nodes s with
  | [] => None
  | x :: _ => Some (fold_left (fun v y => let vt := node_number r y in if is_nan vt then v else if negb (SFltb v vt) then vt else v) (s_nodes s) (node_number r x))
  end.
Definition max_value (r : reader) (s : nodeset) : option spec_float :=
  match s_nodes s with
  | [] => None
  | x :: _ => Some (fold_left (fun v y => let vt := node_number r y in if is_nan vt then v else if negb (SFltb vt v) then vt else v) (s_nodes s) (node_number r x))
  end.
(** compareNodeSets, xpath_object.hpp:666-670. *)
Definition compare_node_sets (r : reader) (op : spec_float -> spec_float -> bool) (a b : nodeset) : option bool :=
  match min_value r a, max_value r b with Some x, Some y => Some (op x y) | _, _ => None end.
(** compareNodeSetWith, xpath_object.hpp:672-679. *)
Definition compare_set_with (r : reader) (top : nodeset -> str) (op : spec_float -> spec_float -> bool) (s : nodeset) (v : value) : option bool :=
  Some (existsb (fun x => op (node_number r x) (as_number r top v)) (s_nodes s)).

(** areEqual, xpath_object.hpp:681-705. *)
Definition are_equal (r : reader) (top : nodeset -> str) (v w : value) : option bool :=
  match v, w with
  | VSet a, VSet b => Some (node_sets_equal r a b)
  | VSet a, _ => set_and_value_equal r a w
  | _, VSet b => set_and_value_equal r b v
  | VBool _, _ | _, VBool _ => Some (Bool.eqb (as_bool v) (as_bool w))
  | VNum _, _ | _, VNum _ => Some (SFeqb (as_number r top v) (as_number r top w))
  | VStr s, VStr t => Some (str_eqb s t)
  end.
(** areNotEqual, xpath_object.hpp:707-723. *)
Definition are_not_equal (r : reader) (top : nodeset -> str) (v w : value) : option bool :=
  match v, w with
  | VSet a, VSet b => Some (node_sets_not_equal r a b)
  | VSet a, _ => set_and_value_not_equal r a w
  | _, VSet b => set_and_value_not_equal r b v
  | _, _ => option_map negb (are_equal r top v w)
  end.
(** isLessThan, xpath_object.hpp:725-741; std::greater(a, b) is b < a. *)
Definition is_less_than (r : reader) (top : nodeset -> str) (v w : value) : option bool :=
  match v, w with
  | VSet a, VSet b => compare_node_sets r SFltb a b
  | VSet a, _ => compare_set_with r top SFltb a w
  | _, VSet b => compare_set_with r top (fun x y => SFltb y x) b v
  | _, _ => Some (SFltb (as_number r top v) (as_number r top w))
  end.
(** isLessThanEquals, xpath_object.hpp:743-759. *)
Definition is_less_than_equals (r : reader) (top : nodeset -> str) (v w : value) : option bool :=
  match v, w with
  | VSet a, VSet b => compare_node_sets r SFleb a b
  | VSet a, _ => compare_set_with r top SFleb a w
  | _, VSet b => compare_set_with r top (fun x y => SFleb y x) b v
  | _, _ => Some (SFleb (as_number r top v) (as_number r top w))
  end.
(** isGreaterThan, isGreaterThanEquals, xpath_object.hpp:761-771. *)
Definition is_greater_than (r : reader) (top : nodeset -> str) (v w : value) : option bool := is_less_than r top w v.
Definition is_greater_than_equals (r : reader) (top : nodeset -> str) (v w : value) : option bool := is_less_than_equals r top w v.

(** The operators, xpath_relational.hpp:13-145. *)
Inductive relop := OpEq | OpNe | OpLt | OpLe | OpGt | OpGe.
Definition compare_values (r : reader) (top : nodeset -> str) (op : relop) (v w : value) : option bool :=
  match op with
  | OpEq => are_equal r top v w
  | OpNe => are_not_equal r top v w
  | OpLt => is_less_than r top v w
  | OpLe => is_less_than_equals r top v w
  | OpGt => is_greater_than r top v w
  | OpGe => is_greater_than_equals r top v w
  end.
