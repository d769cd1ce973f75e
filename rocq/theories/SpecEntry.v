(** Specification vocabulary: texts of integers, and what one client sees. *)
From Coq Require Import String Ascii.
From Verif Require Import Base ModelEntry.
Open Scope nat_scope. Open Scope string_scope.

(** Groups of decimal digits joined by underscores. *)
Definition digit (d : nat) : ascii := ascii_of_nat (48 + d).
Definition group (l : list nat) : string := string_of_list_ascii (map digit l).
Fixpoint groups (ls : list (list nat)) : string :=
  match ls with [] => "" | [l] => group l | l :: r => group l ++ "_" ++ groups r end.
(** The number with the decimal digits [l]. *)
Fixpoint number (l : list nat) : Z :=
  match l with [] => 0%Z | d :: r => (Z.of_nat d * 10 ^ Z.of_nat (List.length r) + number r)%Z end.
Definition blank (s : string) : Prop :=
  Forall (fun c => In c (map ascii_of_nat [9; 10; 11; 12; 13; 32])) (list_ascii_of_string s).
Definition sign (s : string) (z : Z) : Prop := (s = "" \/ s = "+") /\ z = 1%Z \/ s = "-" /\ z = (-1)%Z.

(** [s] is a text of the integer [z], of at most [limit] digits. *)
Definition numeral (limit : nat) (s : string) (z : Z) : Prop :=
  exists before sg ls after u, s = before ++ sg ++ groups ls ++ after /\ blank before /\ blank after /\ sign sg u /\
    ls <> [] /\ Forall (fun l => l <> [] /\ Forall (fun d => d < 10) l) ls /\
    List.length (concat ls) <= limit /\ z = (u * number (concat ls))%Z.

(** "true" in any mix of lower and upper case. *)
Definition yes (s : string) : Prop :=
  exists a b c d, s = String a (String b (String c (String d ""))) /\
    In a ["t"; "T"]%char /\ In b ["r"; "R"]%char /\ In c ["u"; "U"]%char /\ In d ["e"; "E"]%char.

(** The events on the page of client [c], in their order. *)
Definition client_events {event : Type} (c : nat) (hs : list (happening event)) : list event :=
  flat_map (fun h => match h with Happens c' e => if (c' =? c)%nat then [e] else [] | Opens _ => [] end) hs.
