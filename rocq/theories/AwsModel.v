(** * Model of the genetic search on AWS

    [explore_ga_aws!], src/explore/aws/genetic.rs L14-602: the loop that runs on the user's
    machine (L329-562, L599) and the lambda function it generates (L173-222).  Deployment
    and its removal (scripts, queue creation, copying of main.rs; L29-327, L564-597) and
    printing are left out.  [None] and [Panic] are panics.  Numbers do not overflow.

    The user's functions may draw random numbers: they take the generation (and the lambda
    function and position) as extra arguments, as in GaModel.  A lambda function runs one
    simulation per individual it is given ([computed_ind] has one element, L186-205), so
    [eval] covers [new_with_parameters], [init], the steps and [$fitness]. *)
From Coq Require Import List Bool Arith NArith ZArith String Ascii DecimalString.
From Verif Require Import ExpModel GaModel.
Import ListNotations.
Local Open Scope string_scope.

(** ** JSON (serde_json, external) *)
(** What [serde_json::from_str::<Value>] accepts.  Numbers are kept as text, and so are the
    literals [true], [false], [null].  Strings are their UTF-8 bytes.  Left out: numbers
    beyond the range of f64 and more than 127 nested brackets, both errors in serde_json. *)
Inductive json :=
| JStr (s : string)
| JNum (s : string)
| JLit (s : string)
| JArr (l : list json)
| JObj (l : list (string * json)).

Definition quote : ascii := "034".
Definition is_ws (c : ascii) : bool := (c =? " ")%char || (c =? "009")%char || (c =? "010")%char || (c =? "013")%char.
Fixpoint skip (s : string) : string :=
  match s with String c s' => if is_ws c then skip s' else s | EmptyString => s end.
Definition is_digit (c : ascii) : bool := (48 <=? nat_of_ascii c)%nat && (nat_of_ascii c <=? 57)%nat.
(** A character that may stand for itself in a JSON string. *)
Definition is_plain (c : ascii) : bool := (32 <=? nat_of_ascii c)%nat && negb (c =? quote)%char && negb (c =? "\")%char.
Definition escape (c : ascii) : option ascii :=
  if ((c =? quote)%char || (c =? "\")%char || (c =? "/")%char)%bool then Some c
  else if (c =? "n")%char then Some "010"%char
  else if (c =? "t")%char then Some "009"%char
  else if (c =? "r")%char then Some "013"%char
  else if (c =? "b")%char then Some "008"%char
  else if (c =? "f")%char then Some "012"%char
  else None.
(** A hexadecimal digit; four of them. *)
Definition hexv (c : ascii) : option N :=
  let n := N_of_ascii c in
  (if (48 <=? n) && (n <=? 57) then Some (n - 48)
   else if (65 <=? n) && (n <=? 70) then Some (n - 55)
   else if (97 <=? n) && (n <=? 102) then Some (n - 87)
   else None)%N.
Definition hex4 (a b c d : ascii) : option N :=
  match hexv a, hexv b, hexv c, hexv d with
  | Some x, Some y, Some z, Some w => Some (((x * 16 + y) * 16 + z) * 16 + w)%N
  | _, _, _, _ => None
  end.
(** The UTF-8 bytes of a code point. *)
Definition utf8 (n : N) : string :=
  let byte (n : N) (r : string) := String (ascii_of_N n) r in
  (if n <? 128 then byte n ""
   else if n <? 2048 then byte (192 + n / 64) (byte (128 + n mod 64) "")
   else if n <? 65536 then byte (224 + n / 4096) (byte (128 + n / 64 mod 64) (byte (128 + n mod 64) ""))
   else byte (240 + n / 262144) (byte (128 + n / 4096 mod 64) (byte (128 + n / 64 mod 64) (byte (128 + n mod 64) ""))))%N.
(** The halves of a pair such as D83D, DE00. *)
Definition leads (n : N) : bool := ((55296 <=? n) && (n <=? 56319))%N.
Definition trails (n : N) : bool := ((56320 <=? n) && (n <=? 57343))%N.
Definition code_of (n n' : N) : N := (65536 + (n - 55296) * 1024 + (n' - 56320))%N.
(** The rest of a string, after its opening quote.  Half a pair is an error. *)
Fixpoint p_str (s : string) : option (string * string) :=
  match s with
  | EmptyString => None
  | String c s' =>
      if (c =? quote)%char then Some ("", s')
      else if (c =? "\")%char then
        match s' with
        | EmptyString => None
        | String e s'' =>
            if (e =? "u")%char then
              match s'' with
              | String a (String b (String c (String d s3))) =>
                  match hex4 a b c d with
                  | None => None
                  | Some n =>
                      if leads n then
                        match s3 with
                        | String x (String y (String a' (String b' (String c' (String d' s4))))) =>
                            if ((x =? "\")%char && (y =? "u")%char)%bool then
                              match hex4 a' b' c' d' with
                              | Some n' =>
                                  if trails n' then
                                    option_map (fun q => (utf8 (code_of n n') ++ fst q, snd q)) (p_str s4)
                                  else None
                              | None => None
                              end
                            else None
                        | _ => None
                        end
                      else if trails n then None
                      else option_map (fun q => (utf8 n ++ fst q, snd q)) (p_str s3)
                  end
              | _ => None
              end
            else
            match escape e with
            | Some x => option_map (fun q => (String x (fst q), snd q)) (p_str s'')
            | None => None
            end
        end
      else if is_plain c then option_map (fun q => (String c (fst q), snd q)) (p_str s')
      else None
  end.
Definition num_char (c : ascii) : bool :=
  is_digit c || (c =? "+")%char || (c =? "-")%char || (c =? ".")%char || (c =? "e")%char || (c =? "E")%char.
Fixpoint span (f : ascii -> bool) (s : string) : string * string :=
  match s with
  | EmptyString => ("", "")
  | String c s' => if f c then let '(a, b) := span f s' in (String c a, b) else ("", s)
  end.
(** The grammar of numbers. *)
Definition exp_ok (s : string) : bool :=
  match s with
  | EmptyString => true
  | String c r =>
      if ((c =? "e")%char || (c =? "E")%char)%bool then
        let r := match r with String d r' => if ((d =? "+")%char || (d =? "-")%char)%bool then r' else r | EmptyString => r end in
        match span is_digit r with (String _ _, EmptyString) => true | _ => false end
      else false
  end.
Definition frac_ok (s : string) : bool :=
  match s with
  | EmptyString => true
  | String c r =>
      if (c =? ".")%char then match span is_digit r with (String _ _, r') => exp_ok r' | _ => false end
      else exp_ok s
  end.
Definition json_number (s : string) : bool :=
  let s := match s with String c r => if (c =? "-")%char then r else s | EmptyString => s end in
  match s with
  | EmptyString => false
  | String c r =>
      if (c =? "0")%char then frac_ok r
      else if is_digit c then frac_ok (snd (span is_digit r))
      else false
  end.
(** A text that starts with a given one: the rest. *)
Fixpoint strip (p s : string) : option string :=
  match p, s with
  | EmptyString, _ => Some s
  | String a p', String b s' => if (a =? b)%char then strip p' s' else None
  | _, _ => None
  end.
Definition literal (s : string) : option (string * string) :=
  match strip "true" s with
  | Some r => Some ("true", r)
  | None =>
      match strip "false" s with
      | Some r => Some ("false", r)
      | None => option_map (fun r => ("null", r)) (strip "null" s)
      end
  end.
(** Values; elements of an array; members of an object. *)
Fixpoint p_val (fuel : nat) (s : string) : option (json * string) :=
  match fuel with
  | O => None
  | S n =>
      match skip s with
      | EmptyString => None
      | String c r =>
          if (c =? quote)%char then option_map (fun q => (JStr (fst q), snd q)) (p_str r)
          else if (c =? "{")%char then
            match skip r with
            | String "}" r' => Some (JObj [], r')
            | _ => option_map (fun q => (JObj (fst q), snd q)) (p_mem n r)
            end
          else if (c =? "[")%char then
            match skip r with
            | String "]" r' => Some (JArr [], r')
            | _ => option_map (fun q => (JArr (fst q), snd q)) (p_elem n r)
            end
          else
            match literal (String c r) with
            | Some (t, r') => Some (JLit t, r')
            | None =>
                let '(t, r') := span num_char (String c r) in
                if json_number t then Some (JNum t, r') else None
            end
      end
  end
with p_elem (fuel : nat) (s : string) : option (list json * string) :=
  match fuel with
  | O => None
  | S n =>
      match p_val n s with
      | None => None
      | Some (v, r) =>
          match skip r with
          | String "," r' => option_map (fun q => (v :: fst q, snd q)) (p_elem n r')
          | String "]" r' => Some ([v], r')
          | _ => None
          end
      end
  end
with p_mem (fuel : nat) (s : string) : option (list (string * json) * string) :=
  match fuel with
  | O => None
  | S n =>
      match skip s with
      | String c r =>
          if (c =? quote)%char then
            match p_str r with
            | None => None
            | Some (k, r1) =>
                match skip r1 with
                | String ":" r2 =>
                    match p_val n r2 with
                    | None => None
                    | Some (v, r3) =>
                        match skip r3 with
                        | String "," r4 => option_map (fun q => ((k, v) :: fst q, snd q)) (p_mem n r4)
                        | String "}" r4 => Some ([(k, v)], r4)
                        | _ => None
                        end
                    end
                | _ => None
                end
            end
          else None
      | EmptyString => None
      end
  end.
(** A whole text; [2 * length] exceeds the number of nested calls. *)
Definition from_str (s : string) : option json :=
  match p_val (2 * String.length s + 2) s with
  | Some (v, r) => match skip r with EmptyString => Some v | _ => None end
  | None => None
  end.
(** [value[key]]: the last member of that name (the later overwrites the earlier). *)
Fixpoint lookup (k : string) (l : list (string * json)) : option json :=
  match l with
  | [] => None
  | (k', v) :: l' => match lookup k l' with Some w => Some w | None => if (k' =? k)%string then Some v else None end
  end.
Definition field (k : string) (v : json) : option json := match v with JObj l => lookup k l | _ => None end.

(** [{}] of a [usize]; [as_i64] and [as i32] (L517).  The numbers are indices of vectors,
    which an [i64] holds; serde_json reads [-0] as a float. *)
Definition dec (n : N) : string := NilEmpty.string_of_uint (N.to_uint n).
Definition as_i64 (t : string) : option Z :=
  if (t =? "-0")%string then None else option_map Z.of_int (NilZero.int_of_string t).
Definition as_i32 (z : Z) : Z := ((z + 2 ^ 31) mod 2 ^ 32 - 2 ^ 31)%Z.

Section Aws.
Context {F : Type}.
Variable show : F -> string.        (* Display of f32 *)
Variable num : string -> F.         (* as_f64 of a JSON number, as f32 *)
Variable gt ge : F -> F -> bool.    (* > and >= of f32 *)
Variable zero : F.
(** [$desired_fitness], [$reps], [$generation_num], [$num_func]. *)
Variable desired : F.
Variable reps gnum nfunc : nat.
(** Fitness of the simulation at position [j] of lambda function [i] in generation [g]. *)
Variable eval : nat -> nat -> nat -> string -> F.
Variable selection : nat -> list (string * F) -> list (string * F).
Variable mutation : nat -> nat -> string -> string.
Variable crossover : nat -> list string -> list string.
(** What the [k]-th [receive_message] of generation [g] returns ([None]: no message within
    20 seconds).  It may depend on all messages sent so far, those of the current
    generation first. *)
Variable recv : nat -> list (list string) -> nat -> option (list string).

(** [BufferGA], L329-334. *)
Record aws_row := AwsRow { w_gen : N; w_index : Z; w_fit : F; w_ind : string }.

(** ** The lambda function *)
Definition nl : string := String "010" "".
Definition tab : string := String "009" "".
(** L179. *)
Definition msg_head : string := "{" ++ nl ++ tab ++ """function"":[".
(** L211, one individual, without the final comma. *)
Definition msg_row (index : nat) (f : F) (x : string) : string :=
  nl ++ tab ++ "{" ++ nl ++ tab ++ tab ++ """Index"": " ++ dec (N.of_nat index) ++ ", " ++ nl ++ tab ++ tab ++
  """Fitness"": " ++ show f ++ ", " ++ nl ++ tab ++ tab ++ """Individual"": """ ++ x ++ """" ++ nl ++ tab ++ "}".
(** The loop over the individuals, L183-213. *)
Fixpoint msg_rows (g i j : nat) (xs : list string) : string :=
  match xs with
  | [] => ""
  | x :: xs' => msg_row j (eval g i j x) x ++ "," ++ msg_rows g i (S j) xs'
  end.
(** [truncate(len - 1)], L215. *)
Fixpoint chop (s : string) : string :=
  match s with
  | EmptyString => ""
  | String c s' => match s' with EmptyString => "" | _ => String c (chop s') end
  end.
(** The message sent, L179-219. *)
Definition msg (g i : nat) (xs : list string) : string :=
  chop (msg_head ++ msg_rows g i 0 xs) ++ nl ++ tab ++ "]" ++ nl ++ "}".

(** ** The search *)
(** The position in the population of the [j]-th individual of function [i], L398-411. *)
Definition aws_index (total per i sub_size remained j : nat) : nat :=
  if Nat.eqb (total mod nfunc) 0 then i * sub_size + j
  else if Nat.ltb i (total mod nfunc) then i * sub_size + j
  else (total mod nfunc) * (per + 1) + remained * per + j.
(** L395-412. *)
Fixpoint aws_params (pop : list string) (total per i sub_size remained j todo : nat) : option (list string) :=
  match todo with
  | O => Some []
  | S todo' =>
      match nth_error pop (aws_index total per i sub_size remained j mod List.length pop) with
      | None => None
      | Some x => option_map (cons x) (aws_params pop total per i sub_size remained (S j) todo')
      end
  end.
(** The loop over the functions, L382-450: the individuals sent to each. *)
Fixpoint aws_funcs (pop : list string) (total per : nat) (i remainder remained todo : nat) : option (list (list string)) :=
  match todo with
  | O => Some []
  | S todo' =>
      let '(sub_size, remainder') := if Nat.ltb 0 remainder then (per + 1, remainder - 1) else (per, remainder) in
      match aws_params pop total per i sub_size remained 0 sub_size with
      | None => None
      | Some xs =>
          let update := Nat.ltb 0 sub_size && negb (Nat.eqb (total mod nfunc) 0) && negb (Nat.ltb i (total mod nfunc)) in
          option_map (cons xs) (aws_funcs pop total per (S i) remainder' (if update then S remained else remained) todo')
      end
  end.
(** L370-450; division by zero panics. *)
Definition aws_split (pop : list string) : option (list (list string)) :=
  if Nat.eqb nfunc 0 then None
  else let total := List.length pop * reps in aws_funcs pop total (total / nfunc) 0 (total mod nfunc) 0 nfunc.
(** The functions send their messages. *)
Fixpoint aws_sent (g i : nat) (subs : list (list string)) : list string :=
  match subs with [] => [] | xs :: subs' => msg g i xs :: aws_sent g (S i) subs' end.

(** Receiving, L454-488: [num_func] calls; a call without messages panics (L472). *)
Fixpoint aws_receive (g : nat) (hist : list (list string)) (k todo : nat) : option (list string) :=
  match todo with
  | O => Some []
  | S todo' =>
      match recv g hist k with
      | None => None
      | Some ms => option_map (app ms) (aws_receive g hist (S k) todo')
      end
  end.

(** One result, L499-520. *)
Definition aws_result (g : nat) (v : json) : option aws_row :=
  match field "Fitness" v, field "Individual" v, field "Index" v with
  | Some (JNum f), Some (JStr x), Some (JNum n) =>
      option_map (fun z => AwsRow (as_u32 g) (as_i32 z) (num f) x) (as_i64 n)
  | _, _, _ => None
  end.
(** One message, L491-494. *)
Definition aws_decode (g : nat) (m : string) : option (list aws_row) :=
  match from_str m with
  | Some v => match field "function" v with Some (JArr l) => all_some (map (aws_result g) l) | _ => None end
  | None => None
  end.
(** L506-509, starting from L374-375. *)
Definition aws_best_gen (rows : list aws_row) : F * string :=
  fold_left (fun b r => if gt (w_fit r) (fst b) then (w_fit r, w_ind r) else b) rows (zero, "").
(** L524-528. *)
Definition aws_best (best : F * string * nat) (rows : list aws_row) (g : nat) : F * string * nat :=
  let b := aws_best_gen rows in
  if gt (fst b) (fst (fst best)) then (fst b, snd b, g) else best.

(** The loop, L354-559.  [hist]: the messages sent so far; [flag] (L361, L511, L533). *)
Fixpoint aws_loop (fuel g : nat) (pop : list string) (hist : list (list string)) (results : list aws_row) (best : F * string * nat)
  : outcome (list aws_row * (F * string * nat)) :=
  match fuel with
  | O => OutOfFuel
  | S fuel' =>
      if negb (Nat.eqb gnum 0) && Nat.eqb g gnum then Done (results, best)
      else
        let g := S g in
        match aws_split pop with
        | None => Panic
        | Some subs =>
            let hist := aws_sent g 0 subs :: hist in
            match aws_receive g hist 0 nfunc with
            | None => Panic
            | Some ms =>
                match all_some (map (aws_decode g) ms) with
                | None => Panic
                | Some rss =>
                    let rows := List.concat rss in
                    let results := (results ++ rows)%list in
                    let best := aws_best best rows g in
                    if existsb (fun r => ge (w_fit r) desired) rows then Done (results, best)
                    else
                      let sel := selection g (map (fun r => (w_ind r, w_fit r)) rows) in
                      if Nat.leb (List.length sel) 1 then Done (results, best)
                      else aws_loop fuel' g (crossover g (GaModel.mutate mutation g 0 (map fst sel))) hist results best
                end
            end
        end
  end.
Definition ga_aws (fuel : nat) (init : list string) : outcome (list aws_row * (F * string * nat)) :=
  aws_loop fuel 0 init [] [] (zero, "", 0).
End Aws.
Arguments aws_row : clear implicits.
Arguments AwsRow {F}. Arguments w_gen {F}. Arguments w_index {F}. Arguments w_fit {F}. Arguments w_ind {F}.
