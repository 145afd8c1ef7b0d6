(** The [gain_model] argument of [from_antenna_config_with_gains]: radio_telescope_calibration.py:20-106. *)
From Coq Require Import String List Arith Reals Bool.
From Verif Require Import RLib UvGridModel GeoModel GainModel.
Import ListNotations.
Local Open Scope R_scope.

(** The dictionary entries the function looks at; None: no such key. The functions take the number of antennas. *)
Record gain_dict := GainDict {
  d_name : option string; d_mu : option R; d_std : option R; d_min : option R; d_max : option R;
  d_real : option (nat -> list R); d_imag : option (nat -> list R); d_amplitude : option (nat -> list R); d_phase : option (nat -> list R) }.
(** A dictionary, a real array of two columns or more, the documented array of complex gains (one axis), or the documented function. *)
Inductive gain_model := Dict (d : gain_dict) | TwoColumns (rows : list gain) | ComplexArray | Function.
(** What a call does: it raises, prints a message and returns None, or gives a value. *)
Inductive answer (A : Type) := Fails (e : string) | Nothing | Gives (a : A).
Arguments Fails {A}. Arguments Nothing {A}. Arguments Gives {A}.

(** [d[key]] for two keys: KeyError if one is missing. *)
Definition both {A B} (a b : option A) (f : A -> A -> B) : answer B := match a, b with Some x, Some y => Gives (f x y) | _, _ => Fails "KeyError" end.
(** The two columns (66-87). [normal call mu std n], [uniform call lo hi n]: the n numbers of the first (0) and second (1) draw. For an unknown name the
    generator is never bound. A column of an array of one axis: IndexError; of a function: TypeError. *)
Definition columns (normal uniform : nat -> R -> R -> nat -> list R) (m : gain_model) (n : nat) : answer (list R * list R) :=
  match m with
  | Dict d =>
      match d_name d with
      | Some s => if String.eqb (lower s) "random_gaussian" then both (d_mu d) (d_std d) (fun a b => (normal 0%nat a b n, normal 1%nat a b n))
                  else if String.eqb (lower s) "random_uniform" then both (d_min d) (d_max d) (fun a b => (uniform 0%nat a b n, uniform 1%nat a b n))
                  else Fails "UnboundLocalError"
      | None => match d_real d with
                | Some _ => both (d_real d) (d_imag d) (fun f g => (f n, g n))
                | None => match d_phase d with
                          | Some _ => both (d_amplitude d) (d_phase d) (fun f g => (f n, g n))
                          | None => Nothing
                          end
                end
      end
  | TwoColumns rows => Gives (map fst rows, map snd rows)
  | ComplexArray => Fails "IndexError"
  | Function => Fails "TypeError"
  end.
(** The rows of all pairs (89-106): [all_gains_r[ii]] raises IndexError when there are fewer gains than antennas and at least one pair; further gains are
    ignored. [diff]: the three baseline coordinates in wavelengths. *)
Definition antenna_rows {P} (diff : P -> P -> baseline) (ants : list P) (c : list R * list R) : answer (list (baseline * products)) :=
  if (2 <=? length ants)%nat && ((length (fst c) <? length ants)%nat || (length (snd c) <? length ants)%nat) then Fails "IndexError"
  else Gives (rows_of diff (combine ants (combine (fst c) (snd c)))).
Definition with_gains {P} (normal uniform : nat -> R -> R -> nat -> list R) (diff : P -> P -> baseline) (m : gain_model) (ants : list P) : answer (list (baseline * products)) :=
  match columns normal uniform m (length ants) with
  | Fails e => Fails e
  | Nothing => Nothing
  | Gives c => antenna_rows diff ants c
  end.
(** [Nbase, N_ant = from_antenna_config_with_gains(...)] in the caller (175-176): unpacking None raises TypeError. *)
Definition unpacked {A} (a : answer A) : answer A := match a with Nothing => Fails "TypeError" | _ => a end.
