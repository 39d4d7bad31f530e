(** What [PartialEq] and [PartialOrd] require of an implementation, and what a
    total order on the values that are not NaN adds. *)
From Coq Require Import List Bool.

Record order_laws {A : Type} (ok : A -> Prop) (nan : A -> bool) (eq : A -> A -> bool) (cmp : A -> A -> option comparison) : Prop := {
  (** Values are comparable exactly when neither is NaN. *)
  ord_total : forall a b, ok a -> ok b -> (cmp a b = None <-> nan a = true \/ nan b = true);
  (** [a == b] if and only if [partial_cmp] is [Some(Equal)]. *)
  ord_eq : forall a b, ok a -> ok b -> (eq a b = true <-> cmp a b = Some Eq);
  ord_refl : forall a, ok a -> nan a = false -> cmp a a = Some Eq;
  (** [a < b] if and only if [b > a]. *)
  ord_dual : forall a b, ok a -> ok b -> cmp b a = option_map CompOpp (cmp a b);
  ord_trans : forall a b c o, ok a -> ok b -> ok c -> cmp a b = Some o -> cmp b c = Some o -> cmp a c = Some o;
  (** Equal values cannot be told apart by comparing. *)
  ord_subst : forall a b c, ok a -> ok b -> ok c -> cmp a b = Some Eq -> cmp a c = cmp b c }.
