(** * Model of the exported macros that implement a trait for a type by delegating to one of its fields (src/macros.rs), and of the
    traits of src/select/traits.rs as records. *)
From Verif Require Import Machine MTraits MRank MSelect.

(** src/select/traits.rs:2-5 trait [Select1Support] *)
Record select1sup (T : Type) := { s1_select1 : T -> N -> res (option N) }.
Arguments s1_select1 {T} _ _ _.
(** src/select/traits.rs:8-11 trait [Select0Support] *)
Record select0sup (T : Type) := { s0_select0 : T -> N -> res (option N) }.
Arguments s0_select0 {T} _ _ _.
(** src/select/traits.rs:14-20 trait [SelectSupport], with [Over = A] *)
Record selectsup (A T : Type) := { ss_select : T -> N -> A -> res (option N) }.
Arguments ss_select {A T} _ _ _ _.

(** src/select/bin_search.rs:63, 64 and 66-73: the select traits of [BinSearchSelect]; [fuel] bounds the loop *)
Definition bss_select1sup {T} (c : cfg) (K : bitrank T) (fuel : nat) : select1sup T := {| s1_select1 := bss_select1 c K fuel |}.
Definition bss_select0sup {T} (c : cfg) (K : bitrank T) (fuel : nat) : select0sup T := {| s0_select0 := bss_select0 c K fuel |}.
Definition bss_selectsup {A T} (c : cfg) (K : ranksup A T) (fuel : nat) : selectsup A T := {| ss_select := bss_select c K fuel |}.

Section Adapter.
  (** A type [T] with a field of type [F] *)
  Context {T F : Type} (field : T -> F).

  (** src/macros.rs:35-57 [impl_bit_vec_adapter!] *)
  Definition adapt_bitvec (B : bitvec F) : bitvec T := {|
    bv_nb := bv_nb B;
    bv_bit_len := fun t => bv_bit_len B (field t);
    bv_block_len := fun t => bv_block_len B (field t);
    bv_get_bit := fun t i => bv_get_bit B (field t) i;
    bv_get_block := fun t i => bv_get_block B (field t) i;
    bv_get_bits := fun t i n => bv_get_bits B (field t) i n |}.
  (** src/macros.rs:61-75 [impl_rank_support_adapter!] *)
  Definition adapt_ranksup {A} (K : ranksup A F) : ranksup A T := {|
    rs_rank := fun t i v => rs_rank K (field t) i v;
    rs_limit := fun t => rs_limit K (field t) |}.
  (** src/macros.rs:80-92 [impl_bit_rank_support_adapter!], together with the former *)
  Definition adapt_bitrank (K : bitrank F) : bitrank T := {|
    br_rs := adapt_ranksup (br_rs K);
    br_rank1 := fun t i => br_rank1 K (field t) i;
    br_rank0 := fun t i => br_rank0 K (field t) i |}.
  (** src/macros.rs:97-105 [impl_select1_support_adapter!] *)
  Definition adapt_select1 (K : select1sup F) : select1sup T := {| s1_select1 := fun t i => s1_select1 K (field t) i |}.
  (** src/macros.rs:110-118 [impl_select0_support_adapter!] *)
  Definition adapt_select0 (K : select0sup F) : select0sup T := {| s0_select0 := fun t i => s0_select0 K (field t) i |}.
  (** src/macros.rs:123-133 [impl_select_support_adapter!] *)
  Definition adapt_select {A} (K : selectsup A F) : selectsup A T := {| ss_select := fun t i v => ss_select K (field t) i v |}.
End Adapter.
