(** Property theorems: attributes of instances of subclasses of UFloat. *)
From Coq Require Import String List Bool Permutation.
From Verif Require Import Base Attrs AttrsProofs.
Import ListNotations.
Local Open Scope string_scope.
Local Open Scope list_scope.

(** ** C67 *)
(** Unpickling gives an instance of the same class whose attributes have the same (unpickled) values; its __dict__ is new and has the same keys, and the dictionaries of existing instances are unaffected. *)
Theorem C67_pickle : forall (V : Type) (vnone : V) (T : nat -> class V) (order : list string -> list string), (forall l, Permutation l (order l)) -> forall (p : V -> V), forall h o, savable T (o_class o) -> instance T h o ->
  exists h' o', pickled vnone T order p h o = Ok (h', o') /\ o_class o' = o_class o /\ instance T h' o' /\
    (forall n, of_instance T h o n -> same_attr p (getattr vnone T h o n) (getattr vnone T h' o' n)) /\
    (forall d, o_dict o = Some d -> exists d', o_dict o' = Some d' /\ List.length h <= d' /\ dict_at h' d' = redict p (dict_at h d)) /\
    (forall d, d < List.length h -> dict_at h' d = dict_at h d).
Proof. exact @pickle_attrs. Qed.
Print Assumptions C67_pickle.
(** Two base classes, one with a __dict__, the other with a single name as __slots__; a key of the __dict__ is hidden by a slot. *)
Example C67_pickle_example : savable zoo (o_class b_obj) /\ instance zoo b_heap b_obj /\
  of_instance zoo b_heap b_obj "extra" /\ getattr 0 zoo b_heap b_obj "extra" = Ok (AV 3) /\
  of_instance zoo b_heap b_obj "__x__" /\ getattr 0 zoo b_heap b_obj "__x__" = Ok (AV 4) /\
  of_instance zoo b_heap b_obj "unit" /\ getattr 0 zoo b_heap b_obj "unit" = Ok (AV 12) /\
  of_instance zoo b_heap b_obj "x" /\ getattr 0 zoo b_heap b_obj "x" = Ok (AV 10) /\ getattr 0 zoo b_heap b_obj "tag" = Ok (AV 2).
Proof. exact ex_pickle. Qed.
(** copy.copy() gives an instance with the same attributes. (It has the same __dict__ object.) *)
Theorem C67_copy : forall (V : Type) (vnone : V) (T : nat -> class V) (order : list string -> list string), (forall l, Permutation l (order l)) -> forall h o, savable T (o_class o) -> instance T h o ->
  exists h' o', shallow vnone T order h o = Ok (h', o') /\ o_class o' = o_class o /\ o_dict o' = o_dict o /\
    (forall n, of_instance T h o n -> same_attr (fun v => v) (getattr vnone T h o n) (getattr vnone T h' o' n)) /\
    (forall d, d < List.length h -> dict_at h' d = dict_at h d).
Proof. exact @copy_attrs. Qed.
Print Assumptions C67_copy.
(** Same example as for C67_pickle. *)
(** An attribute that is set reads as the value given, be it in a slot or in the __dict__, and the other attributes are unaffected. *)
Theorem C67_set : forall (V : Type) (vnone : V) (T : nat -> class V), forall h o n v h' o', instance T h o -> setattr T h o n (AV v) = Ok (h', o') ->
  instance T h' o' /\ getattr vnone T h' o' n = Ok (AV v) /\
  forall m, m <> n -> getattr vnone T h' o' m = getattr vnone T h o m.
Proof. exact @set_get. Qed.
Print Assumptions C67_set.
(** In a slot, in the __dict__; a property raises. *)
Example C67_set_example : instance zoo b_heap b_obj /\
  (exists h o, setattr zoo b_heap b_obj "extra" (AV 5) = Ok (h, o)) /\
  (exists h o, setattr zoo b_heap b_obj "unit" (AV 5) = Ok (h, o)) /\
  setattr zoo b_heap b_obj "std_dev" (AV 5) = Err EAttr.
Proof. exact ex_set. Qed.
(** The conditions are necessary: private slots are lost, *)
Theorem C67_private_refuted : let o := make 5 [((5, "_P__key"), 3)] None in
  instance zoo [] o /\ getattr 0 zoo [] o "_P__key" = Ok (AV 3) /\
  exists o', pickled 0 zoo (fun l => l) (fun v => v) [] o = Ok ([], o') /\ getattr 0 zoo [] o' "_P__key" = Err EAttr.
Proof. exact private_lost. Qed.
Print Assumptions C67_private_refuted.
(** so are slots declared with an iterator; *)
Theorem C67_iterator_refuted : let o := make 6 [((6, "key"), 3)] None in
  instance zoo [] o /\ getattr 0 zoo [] o "key" = Ok (AV 3) /\
  exists o', pickled 0 zoo (fun l => l) (fun v => v) [] o = Ok ([], o') /\ getattr 0 zoo [] o' "key" = Err EAttr.
Proof. exact iterator_lost. Qed.
Print Assumptions C67_iterator_refuted.
(** with a slot __weakref__, unpickling raises AttributeError; *)
Theorem C67_weakref_refuted : let o := make 7 [((0, "_nominal_value"), 3)] None in
  instance zoo [] o /\ pickled 0 zoo (fun l => l) (fun v => v) [] o = Err EAttr.
Proof. exact weakref_raises. Qed.
Print Assumptions C67_weakref_refuted.
(** so it does if a subclass has a property instead of a slot. *)
Theorem C67_property_refuted : let o := make 8 [((0, "_linear_part"), 3)] (Some 0) in
  instance zoo [[]] o /\ pickled 0 zoo (fun l => l) (fun v => v) [[]] o = Err EAttr.
Proof. exact property_raises. Qed.
Print Assumptions C67_property_refuted.
(** copy.copy() of an instance with a __dict__: changing an attribute of the copy changes the original. *)
Theorem C67_shared_refuted : let o := make 9 [((0, "_nominal_value"), 3)] (Some 0) in let h := [[("x", 1)]] in
  savable zoo (o_class o) /\ instance zoo h o /\ getattr 0 zoo h o "x" = Ok (AV 1) /\
  exists h1 o' h2 o2, shallow 0 zoo (fun l => l) h o = Ok (h1, o') /\ setattr zoo h1 o' "x" (AV 2) = Ok (h2, o2) /\
    getattr 0 zoo h2 o "x" = Ok (AV 2).
Proof. exact copy_shares. Qed.
Print Assumptions C67_shared_refuted.
