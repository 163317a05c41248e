(* aligning_allocator: /repo/include/yato/aligning_allocator.h:17-195.

   Addresses, sizes and bytes are integers; size_t and pointer arithmetic is
   taken modulo 2^64.  Memory is a function from addresses to bytes.  The
   blocks obtained from operator new[] and not yet given back are a list of
   (address, length).  Where operator new[] puts a block is an input of the
   operation; operator delete[] of an address that is not that of a live block
   is undefined ([None]), and so is writing the offset record outside the block.

   Release build: YATO_ASSERT, YATO_REQUIRES are empty and narrow_cast truncates.
   sizeof and alignof of uint8_t, uint16_t, uint32_t, uint64_t are 1, 2, 4, 8;
   alignof(max_align_t) is 16; bytes of the record are in little-endian order.
   rebind, construct, destroy, address and the comparison operators (always
   equal) are not modelled. *)
From Coq Require Import ZArith List Bool.
Import ListNotations.
Local Open Scope Z_scope.

Definition wrap (z : Z) : Z := z mod 2 ^ 64.

(* get_extra_length<Align_, OffsetType_>, lines 19-22, with s = sizeof(OffsetType_)
   = alignof(OffsetType_) *)
Definition extra_length (A s : Z) : Z := wrap (A - 1 + s + s - 1).

(* select_offset_type<Align_>, lines 24-45: the smallest of 1, 2, 4, 8 bytes
   whose maximum is at least the extra length.  (Past 8 bytes the type would be
   void; 8 bytes always suffice because the extra length is a size_t.) *)
Definition offset_size (A : Z) : Z :=
  if extra_length A 1 <=? 2 ^ 8 - 1 then 1
  else if extra_length A 2 <=? 2 ^ 16 - 1 then 2
  else if extra_length A 4 <=? 2 ^ 32 - 1 then 4
  else 8.

(* extra_bytes, line 52 *)
Definition extra_bytes (A : Z) : Z := extra_length A (offset_size A).

(* ceil_address, lines 54-58 (it rounds down) *)
Definition ceil_address (p align : Z) : Z := p / align * align.

(* get_offset_ptr, lines 60-64 *)
Definition offset_ptr (A p : Z) : Z :=
  ceil_address (wrap (p - offset_size A)) (offset_size A).

Definition memory := Z -> Z.

(* writing and reading an unsigned integer of n bytes *)
Fixpoint store (n : nat) (a v : Z) (m : memory) : memory :=
  match n with
  | O => m
  | S n' => store n' (a + 1) (v / 256) (fun x => if x =? a then v mod 256 else m x)
  end.

Fixpoint load (n : nat) (a : Z) (m : memory) : Z :=
  match n with
  | O => 0
  | S n' => m a + 256 * load n' (a + 1) m
  end.

(* the choice of the base class, lines 48-49, 82-86: natural alignments use
   plain arrays *)
Definition power_of_two (A : Z) : bool := Z.land A (A - 1) =? 0.
Definition natural (A : Z) : bool := power_of_two A && (A <=? 16).

(* sizeof(std::aligned_storage<sizeof(Ty_), Align_>::type), line 89 *)
Definition round_up (size A : Z) : Z := (size + A - 1) / A * A.

Record heap := MkHeap { mem : memory; blocks : list (Z * Z) }.

(* the number of bytes asked from operator new[], lines 68 and 93.  For plain
   arrays the language checks the multiplication; that case is not modelled. *)
Definition request (A size n : Z) : Z :=
  if natural A then n * round_up size A else wrap (n * size + extra_bytes A).

(* allocate_aligned, lines 66-73 and 91-94; b is the address returned by new[] *)
Definition allocate (A size n b : Z) (h : heap) : option (Z * heap) :=
  let len := request A size n in
  if natural A then Some (b, MkHeap (mem h) ((b, len) :: blocks h))
  else
    let aligned := ceil_address (wrap (b + extra_bytes A)) A in
    let optr := offset_ptr A aligned in
    let s := offset_size A in
    if (b <=? optr) && (optr + s <=? b + len) then
      Some (aligned,
            MkHeap (store (Z.to_nat s) optr (wrap (aligned - b) mod 2 ^ (8 * s)) (mem h))
                   ((b, len) :: blocks h))
    else None.

(* operator delete[] *)
Fixpoint release (b : Z) (l : list (Z * Z)) : option (list (Z * Z)) :=
  match l with
  | [] => None
  | (b', len) :: l' =>
    if b' =? b then Some l' else option_map (cons (b', len)) (release b l')
  end.

(* deallocate_aligned, lines 75-80 and 96-99 *)
Definition deallocate (A p : Z) (h : heap) : option heap :=
  let b :=
    if natural A then p
    else wrap (p - load (Z.to_nat (offset_size A)) (offset_ptr A p) (mem h)) in
  option_map (MkHeap (mem h)) (release b (blocks h)).

(* What a program does: allocate n objects (the block appears at b), write a
   byte, deallocate. *)
Inductive event :=
| Allocate (n b : Z)
| Write (a v : Z)
| Deallocate (p : Z).

(* The pointer is what allocate returned. *)
Definition exec (A size : Z) (h : heap) (e : event) : option (option Z * heap) :=
  match e with
  | Allocate n b => option_map (fun r => (Some (fst r), snd r)) (allocate A size n b h)
  | Write a v => Some (None, MkHeap (fun x => if x =? a then v else mem h x) (blocks h))
  | Deallocate p => option_map (fun h' => (None, h')) (deallocate A p h)
  end.
