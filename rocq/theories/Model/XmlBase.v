(** include/SAX/helpers/XMLBaseSupport.hpp and include/SAX/filter/XMLBaseTracker.hpp. *)
From Verif.Model Require Import Base Uri Attrs NsSupport.

(** "base" *)
Definition s_base : str := [98; 97; 115; 101].

(** bases_ and depth_, XMLBaseSupport.hpp:108-112; the top of the stack first. *)
Record xbase := XBase { xb_stack : list (Z * str); xb_depth : Z }.
Definition xbase0 : xbase := XBase [] 0.

(** setDocumentLocation, XMLBaseSupport.hpp:57-60. *)
Definition set_location (loc : str) (x : xbase) : xbase :=
  XBase ((-1, loc) :: xb_stack x) (xb_depth x).
(** currentBase, currentDepth, XMLBaseSupport.hpp:80-85, 100-105. *)
Definition current_base (x : xbase) : str :=
  match xb_stack x with [] => [] | (_, b) :: _ => b end.
Definition current_depth (x : xbase) : Z :=
  match xb_stack x with [] => -1 | (d, _) :: _ => d end.
(** absolutise, XMLBaseSupport.hpp:93-98.  Val None: the URI code threw.  (The
    result passes through c_str(); strings with NUL are not considered.) *)
Definition xb_absolutise (base loc : str) : outcome (option str) :=
  obind (parse base) (fun b =>
  obind (resolve b loc) (fun o =>
  Val match o with Some u => Some (as_string u) | None => None end)).
(** startElement, XMLBaseSupport.hpp:62-71. *)
Definition xb_start (atts : list attr) (x : xbase) : outcome (option xbase) :=
  let d := xb_depth x + 1 in
  match value_of atts xml_uri s_base with
  | [] => Val (Some (XBase (xb_stack x) d))
  | b => obind (xb_absolutise (current_base x) b) (fun o =>
         Val match o with
             | Some u => Some (XBase ((d, u) :: xb_stack x) d)
             | None => None
             end)
  end.
(** endElement, XMLBaseSupport.hpp:73-78. *)
Definition xb_end (x : xbase) : xbase :=
  XBase (if current_depth x =? xb_depth x then tl (xb_stack x) else xb_stack x)
        (xb_depth x - 1).
(** makeAbsolute, XMLBaseSupport.hpp:87-90. *)
Definition make_absolute (x : xbase) (spec : str) : outcome (option str) :=
  xb_absolutise (current_base x) spec.

(** A run of element events; None stops at a throw. *)
Inductive xbev := XStart (atts : list attr) | XEnd.
Fixpoint xb_run (evs : list xbev) (x : xbase) : outcome (option xbase) :=
  match evs with
  | [] => Val (Some x)
  | XStart a :: r => obind (xb_start a x) (fun o =>
                     match o with Some x' => xb_run r x' | None => Val None end)
  | XEnd :: r => xb_run r (xb_end x)
  end.

(** XMLBaseTracker.hpp:66-89 with a locator that reports [loc]: the location is
    pushed when the base is first asked for. *)
Record xtracker := XTracker { xt_base : xbase; xt_set : bool }.
Definition xt_query (loc : str) (t : xtracker) : str * xtracker :=
  let t' := if xt_set t then t else XTracker (set_location loc (xt_base t)) true in
  (current_base (xt_base t'), t').
Definition xt_start (atts : list attr) (t : xtracker) : outcome (option xtracker) :=
  obind (xb_start atts (xt_base t)) (fun o =>
  Val match o with Some x => Some (XTracker x (xt_set t)) | None => None end).
Definition xt_end (t : xtracker) : xtracker := XTracker (xb_end (xt_base t)) (xt_set t).
Definition xtracker0 : xtracker := XTracker xbase0 false.
