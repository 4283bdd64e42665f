(** C47: the JSON form of values. *)
From Verif Require Import Base Heap JsonModel JsonFacts.
Import ListNotations.
Open Scope string_scope.
Open Scope list_scope.

(** Supported values ([serialisable], JsonFacts.v): constants, numbers, texts, bytes and all
    containers of supported values; set elements and dictionary keys are hashable and different. *)
Theorem C47_round_trip : forall v, serialisable v -> exists j, to_json v = Ok j /\ from_json j = Ok v.
Proof. exact codec. Qed.

Theorem C47_injective : forall v w j, serialisable v -> serialisable w -> to_json v = Ok j -> to_json w = Ok j -> v = w.
Proof.
  intros v w j Sv Sw Ev Ew. destruct (codec v Sv) as (a & A1 & A2), (codec w Sw) as (b & B1 & B2). congruence.
Qed.

(** A value that contains (at any depth) an object the library cannot store is rejected. *)
Theorem C47_objects_rejected : forall v, holds_obj v -> to_json v = Err TypeError.
Proof. exact to_json_obj. Qed.

Definition ex_value : pyval :=
  PDict [(PStr "k", PList [PTuple [PInt 1; PBytes "ab"]; PSet [PInt 2; PStr "4"]; PDeque [PNone; PBool true]]);
         (PTuple [PNoTag; PInt 3], PODict [(PAny, PNoValue); (PNoKey, PFloat 7)])].
Example C47_case : serialisable ex_value.
Proof.
  assert (N2 : forall a b : pyval, a <> b -> NoDup [a; b]).
  { intros a b H. constructor; [intros [E|[]]; congruence|constructor; [intros []|constructor]]. }
  assert (C : forall v, In v [PNoTag; PNoValue; PNoKey; PAny; PNone] -> serialisable v) by (intros; apply ser_const; assumption).
  unfold ex_value.
  repeat first [apply Forall_cons | apply Forall_nil | split | apply ser_dict | apply ser_odict | apply ser_list | apply ser_tuple | apply ser_set
    | apply ser_deque | apply ser_int | apply ser_str | apply ser_bytes | apply ser_bool | apply ser_float
    | apply N2; discriminate | apply C; cbn; tauto | reflexivity].
Qed.
Example C47_case_rejected : holds_obj (PList [PInt 1; PDict [(PInt 2, PObj 7)]]).
Proof.
  eapply ho_iter; [right; left; reflexivity|right; left; reflexivity|].
  eapply ho_dict; [left; reflexivity|left; reflexivity|right; reflexivity|constructor].
Qed.
