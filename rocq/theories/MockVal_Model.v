(* Model of testtools/micromock/inc/mockvalue.h (values of arrays and of wide strings), of valueHolder<T*> in
   timediscretemicromock.h, and of the singletons of globalmock.h and threadsafeglobalmock.h. *)
From Verif Require Import Base Strings_Model.
Local Open Scope nat_scope.

(* The blocks new T[n] made: their elements while they are live; addresses are not used again. *)
Record heap (A : Type) := { cells : nat -> option (list A); next : nat }.
Arguments cells {A}. Arguments next {A}.
Definition empty_heap {A} : heap A := {| cells := fun _ => None; next := 0 |}.
Definition set_cell {A} (f : nat -> option (list A)) (i : nat) (x : option (list A)) (j : nat) : option (list A) := if j =? i then x else f j.
(* new T[n], filled by the loop after it *)
Definition new {A} (l : list A) (m : heap A) : nat * heap A := (next m, {| cells := set_cell (cells m) (next m) (Some l); next := S (next m) |}).
(* delete[]: undefined (None) unless the block is live *)
Definition delete {A} (i : nat) (m : heap A) : option (heap A) :=
  match cells m i with Some _ => Some {| cells := set_cell (cells m) i None; next := next m |} | None => None end.
(* for (i = 0; i < n; i++) copy[i] = value[i]: undefined when there are fewer elements *)
Definition read_n {A} (n : nat) (l : list A) : option (list A) := if n <=? length l then Some (firstn n l) else None.

(* ---- CMockValue<T[N]>, :328-459; CMockValue<const T[N]>, :461-594, has the same text ---- *)
(* m_Value; [copy] is None while it was never set *)
Record array_value := { isNULL : bool; copy : option nat }.
(* a pointer given by the caller: NULL, elements of its own, or what GetValue returned *)
Inductive pointer (A : Type) := Null | At (l : list A) | Own.
Arguments Null {A}. Arguments At {A}. Arguments Own {A}.
Inductive outcome (A R : Type) := Returns (r : R) (m : heap A) | Throws (r : option R) (m : heap A) | Undefined.
Arguments Returns {A R}. Arguments Throws {A R}. Arguments Undefined {A R}.
(* :340-356; [memory]: whether new succeeds; when it throws there is no object *)
Definition construct_array {A} (n : nat) (value : option (list A)) (memory : bool) (m : heap A) : outcome A array_value :=
  match value with
  | None => Returns {| isNULL := true; copy := None |} m
  | Some l =>
    if memory then
      match read_n n l with None => Undefined | Some e => let '(i, m) := new e m in Returns {| isNULL := false; copy := Some i |} m end
    else Throws None m
  end.
Definition delete_copy {A} (v : array_value) (m : heap A) : option (heap A) := match copy v with None => None | Some i => delete i m end.
(* :398-443; when new throws the object is as it was left *)
Definition set_array {A} (n : nat) (p : pointer A) (memory : bool) (v : array_value) (m : heap A) : outcome A array_value :=
  let fill l m := if memory then match read_n n l with None => Undefined | Some e => let '(i, m) := new e m in Returns {| isNULL := false; copy := Some i |} m end
                  else Throws (Some {| isNULL := false; copy := copy v |}) m in
  if isNULL v then match p with Null | Own => Returns v m | At l => fill l m end
  else
    match p with
    | Null => match delete_copy v m with None => Undefined | Some m => Returns {| isNULL := true; copy := copy v |} m end
    | Own => Returns v m
    | At l => match delete_copy v m with None => Undefined | Some m => fill l m end
    end.
(* :358-364 *)
Definition destroy_array {A} (v : array_value) (m : heap A) : option (heap A) := if isNULL v then Some m else delete_copy v m.
(* :444-454, and what is found there: None is undefined, Some None is NULL *)
Definition get_array {A} (v : array_value) (m : heap A) : option (option (list A)) :=
  if isNULL v then Some None else match copy v with None => None | Some i => option_map Some (cells m i) end.
(* :366-390; [show]: what operator<< writes for an element *)
Fixpoint elements {A} (show : A -> list N) (first : bool) (l : list A) : list N :=
  match l with [] => [] | a :: t => (if first then [] else [44%N]) ++ show a ++ elements show false t end.
Definition array_text {A} (show : A -> list N) (v : option (list A)) : list N :=
  match v with None => [78; 85; 76; 76]%N | Some l => [123%N] ++ elements show true l ++ [125%N] end.
(* what strcmp sees of ToString().c_str() *)
Fixpoint c_str (t : list N) : list N := match t with [] => [] | c :: t => if (c =? 0)%N then [] else c :: c_str t end.
(* :604-610 operator== *)
Definition array_equal {A} (show : A -> list N) (l r : option (list A)) : bool := (strcmp (c_str (array_text show l)) (c_str (array_text show r)) =? 0)%Z.

(* ---- CMockValue<wchar_t*>, :148-211; CMockValue<const wchar_t*>, :213-274, has the same text.  The wide string kept: ---- *)
Definition NULL_TEXT : list N := [78; 85; 76; 76]%N.
(* :153-165 and :188-200; [value]: the characters before the terminator *)
Definition wide (value : option (list N)) : list N := match value with None => NULL_TEXT | Some t => t end.
(* :182-186 and :201-204 *)
Definition wide_equal (l r : list N) : bool := (strcmp l r =? 0)%Z.
(* :171-180: each wide character is cut to a char *)
Definition wide_text (v : list N) : list N := c_str (map (fun c => (c mod 256)%N) v).

(* ---- timediscretemicromock.h:93-206 valueHolder<T*>; the one for const T*, :209-322, has the same text ---- *)
(* theValue, originalPointer (whether it was set) and arraySize are None while indeterminate *)
Record holder (A : Type) := { wasNULL : bool; theValue : option A; original : bool; arraySize : option nat; copyArray : option nat }.
Arguments wasNULL {A}. Arguments theValue {A}. Arguments original {A}. Arguments arraySize {A}. Arguments copyArray {A}.
(* :105-118 SetValue and :121-125; [value]: what the pointer points to *)
Definition hold {A} (value : option A) : holder A :=
  match value with
  | None => {| wasNULL := true; theValue := None; original := false; arraySize := None; copyArray := None |}
  | Some a => {| wasNULL := false; theValue := Some a; original := true; arraySize := Some 0; copyArray := None |}
  end.
(* :127-143; copying members that are indeterminate is taken to be harmless *)
Definition copy_holder {A} (h : holder A) (m : heap A) : option (holder A * heap A) :=
  match copyArray h with
  | None => Some (h, m)
  | Some i =>
    match arraySize h, cells m i with
    | Some n, Some l =>
      match read_n n l with
      | None => None
      | Some e => let '(j, m) := new e m in
                  Some ({| wasNULL := wasNULL h; theValue := theValue h; original := original h; arraySize := Some n; copyArray := Some j |}, m)
      end
    | _, _ => None
    end
  end.
(* :148-155 *)
Definition destroy_holder {A} (h : holder A) (m : heap A) : option (heap A) := match copyArray h with None => Some m | Some i => delete i m end.
(* :163-180 operator T*, and what is found there: None is undefined, Some None is NULL *)
Definition held {A} (h : holder A) (m : heap A) : option (option (list A)) :=
  if wasNULL h then Some None
  else match arraySize h with
       | None => None
       | Some 0 => option_map (fun a => Some [a]) (theValue h)
       | Some _ => match copyArray h with None => None | Some i => option_map Some (cells m i) end
       end.
(* :182-205 setArraySize with a size that is not 0; [content]: what originalPointer points to now *)
Definition set_array_size {A} (n : nat) (content : list A) (h : holder A) (m : heap A) : option (holder A * heap A) :=
  match destroy_holder h m with
  | None => None
  | Some m =>
    if original h then
      match read_n n content with
      | None => None
      | Some e => let '(j, m) := new e m in
                  Some ({| wasNULL := wasNULL h; theValue := theValue h; original := original h; arraySize := Some n; copyArray := Some j |}, m)
      end
    else None
  end.
Fixpoint copy_all {A} (hs : list (holder A)) (m : heap A) : option (list (holder A) * heap A) :=
  match hs with
  | [] => Some ([], m)
  | h :: t => match copy_holder h m with None => None | Some (h, m) => match copy_all t m with None => None | Some (t, m) => Some (h :: t, m) end end
  end.
Fixpoint destroy_all {A} (hs : list (holder A)) (m : heap A) : option (heap A) :=
  match hs with [] => Some m | h :: t => match destroy_holder h m with None => None | Some m => destroy_all t m end end.
(* the vector allCalls of a player with one pointer argument (callmacros.h:424, 461-465): operator() with [value] behind the pointer.
   push_back copies the new element, and when it moves the vector ([moves]) also the others, whose originals are destroyed. *)
Definition stim {A} (value : option A) (moves : bool) (calls : list (holder A)) (m : heap A) : option (list (holder A) * heap A) :=
  match (if moves then match copy_all calls m with None => None | Some (hs, m) => match destroy_all calls m with None => None | Some m => Some (hs, m) end end
         else Some (calls, m)) with
  | None => None
  | Some (hs, m) =>
    match copy_holder (hold value) m with
    | None => None
    | Some (h, m) => match destroy_holder (hold value) m with None => None | Some m => Some (hs ++ [h], m) end
    end
  end.
(* callmacros.h:466-494: the last element; with none, or with size 0, an exception and nothing changed *)
Definition array_size {A} (n : nat) (content : list A) (calls : list (holder A)) (m : heap A) : option (list (holder A) * heap A) :=
  match n with
  | 0 => Some (calls, m)
  | S _ =>
    match rev calls with
    | [] => Some (calls, m)
    | h :: t => match set_array_size n content h m with None => None | Some (h, m) => Some (rev t ++ [h], m) end
    end
  end.
Inductive call (A : Type) := Stim (value : option A) (moves : bool) | ArraySize (n : nat) (content : list A).
Arguments Stim {A}. Arguments ArraySize {A}.
Definition do_call {A} (c : call A) (s : list (holder A) * heap A) : option (list (holder A) * heap A) :=
  match c with Stim v moves => stim v moves (fst s) (snd s) | ArraySize n l => array_size n l (fst s) (snd s) end.
Fixpoint do_calls {A} (cs : list (call A)) (s : list (holder A) * heap A) : option (list (holder A) * heap A) :=
  match cs with [] => Some s | c :: t => match do_call c s with None => None | Some s => do_calls t s end end.

(* ---- singletons of mocks: m_GlobalMockInstance, and the mocks alive ---- *)
Inductive life := Born (x : nat) | Dies (x : nat).
(* globalmock.h:23-32 *)
Definition global_step (e : life) (i : option nat) : option nat := match e with Born x => Some x | Dies _ => None end.
(* threadsafeglobalmock.h:22-43: InterlockedCompareExchangePointer; the second component: whether the constructor throws *)
Definition safe_step (e : life) (i : option nat) : option nat * bool :=
  match e with
  | Born x => match i with None => (Some x, false) | Some _ => (i, true) end
  | Dies x => match i with Some y => if x =? y then (None, false) else (i, false) | None => (i, false) end
  end.
