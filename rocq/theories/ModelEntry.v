(** The entry point of the web application: app.py:1032-1050 [main], called by [_run_app.py:8-12],
    and app.py:1013-1029 [startup], which makes an [App] with its own storage for every client. *)
From Coq Require Import String Ascii.
From Verif Require Import Base.
Open Scope string_scope. Open Scope list_scope. Open Scope nat_scope.

Definition environment : Type := string -> option string.
(** [os.getenv(name, default)] *)
Definition getenv (env : environment) (name default : string) : string :=
  match env name with Some s => s | None => default end.

(** [str.lower] on ASCII characters. Other characters are kept: none of them has one of
    the letters of "true" as lower case. *)
Definition lower_char (c : ascii) : ascii :=
  let n := nat_of_ascii c in if (65 <=? n) && (n <=? 90) then ascii_of_nat (n + 32) else c.
Fixpoint lower (s : string) : string :=
  match s with EmptyString => EmptyString | String c r => String (lower_char c) (lower r) end.

(** [int(s)] for a string, as CPython's [PyLong_FromString] with base 10: white space, a sign, digits
    with single underscores between them, white space. With more digits than
    [sys.get_int_max_str_digits()] it raises. Digits and spaces outside ASCII are not modelled. *)
Definition is_space (c : ascii) : bool := let n := nat_of_ascii c in (n =? 32) || ((9 <=? n) && (n <=? 13)).
Definition is_digit (c : ascii) : bool := let n := nat_of_ascii c in (48 <=? n) && (n <=? 57).
Definition digit_of (c : ascii) : Z := Z.of_nat (nat_of_ascii c) - 48.
Fixpoint skip_space (s : list ascii) : list ascii :=
  match s with c :: r => if is_space c then skip_space r else s | [] => [] end.
(** Digits and underscores from [s]: the digits and the rest. [prev] tells whether the last character was
    an underscore. *)
Fixpoint scan (prev : bool) (s : list ascii) (acc : list Z) : option (list Z * list ascii) :=
  match s with
  | c :: r =>
      if (c =? "_")%char then if prev then None else scan true r acc
      else if is_digit c then scan false r (acc ++ [digit_of c])
      else if prev then None else Some (acc, s)
  | [] => if prev then None else Some (acc, [])
  end.
Definition value_of (ds : list Z) : Z := fold_left (fun a d => (10 * a + d)%Z) ds 0%Z.
Definition max_digits : nat := 4300.
Definition py_int (s : string) : res Z :=
  let s := skip_space (list_ascii_of_string s) in
  let '(neg, s) := match s with
                   | c :: r => if (c =? "-")%char then (true, r) else if (c =? "+")%char then (false, r) else (false, s)
                   | [] => (false, [])
                   end in
  match s with
  | c :: _ =>
      if is_digit c then
        match scan false s [] with
        | Some (ds, rest) =>
            match skip_space rest with
            | [] => if max_digits <? List.length ds then Err ValueError
                    else Ok (if neg then - value_of ds else value_of ds)%Z
            | _ => Err ValueError
            end
        | None => Err ValueError
        end
      else Err ValueError
  | [] => Err ValueError
  end.

Record settings : Type := mksettings { s_host : string; s_port : Z; s_reload : bool; s_secret : string }.
(** What [main] has done: the page registered by [startup], the server run by [ui.run]. *)
Inductive action : Type := PageRegistered | ServerRun (s : settings).

(** app.py:1032-1050 [main]. The arguments of [ui.run] are evaluated after [startup]. *)
Definition main (env : environment) : list action * res unit :=
  let port := getenv env "PORT" "8080" in
  let host := getenv env "HOST" "0.0.0.0" in
  let production := (lower (getenv env "PRODUCTION" "false") =? "true")%string in
  let storage_secret := getenv env "STORAGE_SECRET" "storage_secret" in
  match py_int port with
  | Ok p => ([PageRegistered; ServerRun (mksettings host p (negb production) storage_secret)], Ok tt)
  | Err e => ([PageRegistered], Err e)
  end.

(** app.py:1013-1029: every client that opens the page gets a new [App] on its own
    [app.storage.client]. A history of the server: clients open the page, and events happen on
    the page of a client. Nothing else of the module changes. *)
Section Clients.
Context {page event : Type}.
Variable new_page : page.
Variable step : event -> page -> page.
Inductive happening : Type := Opens (client : nat) | Happens (client : nat) (e : event).
Definition server : Type := list (nat * page).
Definition page_of (s : server) (c : nat) : option page :=
  match find (fun p => fst p =? c) s with Some p => Some (snd p) | None => None end.
Definition serve (s : server) (h : happening) : server :=
  match h with
  | Opens c => (c, new_page) :: s
  | Happens c e => match page_of s c with Some p => (c, step e p) :: s | None => s end
  end.
Definition history (hs : list happening) : server := fold_left serve hs [].
End Clients.
Arguments happening : clear implicits.
