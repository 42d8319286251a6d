(** Which resolver a history of registrations leaves for a scheme: the one registered last, if
    the scheme was not unregistered after it. *)
From Verif.Model Require Import Base Uri Resolver.

Section Spec.
  Context {T : Type}.
  Inductive in_force (m : str) : list (change (T := T)) -> option (resolver (T := T)) -> Prop :=
  | never : forall l, (forall c, In c l -> match c with Register n _ | Unregister n => n <> m end) -> in_force m l None
  | by_registering : forall a f b, (forall c, In c b -> match c with Register n _ | Unregister n => n <> m end) -> in_force m (a ++ Register m f :: b) (Some f)
  | by_unregistering : forall a b, (forall c, In c b -> match c with Register n _ | Unregister n => n <> m end) -> in_force m (a ++ Unregister m :: b) None.

  (** A name of a file as it is written in a system identifier without a scheme. *)
  Definition plain_name (s : str) : Prop := ~ In 58 s /\ ~ In 92 s /\ ~ In 0 s.
  (** scheme:rest, where the rest is neither empty nor a single slash. *)
  Definition has_scheme (s scheme rest : str) : Prop :=
    s = scheme ++ [58] ++ rest /\ ~ In 58 scheme /\ scheme <> [] /\ length scheme <> 1%nat /\ rest <> [] /\ rest <> [47].
End Spec.
