(** * The no-op builder (src/ast/builder/empty_builder.rs) *)
From Verif Require Import Base Token Ast Builder.

(** empty_builder.rs 25-147: [impl Builder for EmptyBuilder]; [Error = Void]. *)
Definition empty_builder : builder :=
  mkBuilder unit unit unit unit unit unit unit unit Empty_set
    (fun _ _ _ _ s => (inl tt, s))
    (fun _ _ s => (inl tt, s))
    (fun _ _ s => (inl tt, s))
    (fun _ _ s => (inl tt, s))
    (fun _ _ s => (inl tt, s))
    (fun _ _ s => (inl tt, s))
    (fun _ _ _ s => (inl tt, s))
    (fun _ _ s => (inl tt, s))
    (fun _ _ s => (inl tt, s))
    (fun _ _ s => (inl tt, s))
    (fun _ s => (inl tt, s))
    (fun _ _ _ s => (inl tt, s))
    (fun _ s => (inl tt, s))
    (fun _ s => (inl tt, s))
    (fun _ s => (inl tt, s)).
