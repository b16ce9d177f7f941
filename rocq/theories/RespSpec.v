(* What the properties of the answers of the HTTP frontend mean. *)
From Coq Require Import Ascii String List Bool Arith NArith.
From Verif Require Import RespModel.
Import ListNotations.
Open Scope list_scope.

(* ---- JSON lines, as a client reads them (RFC 8259, flat objects) ---- *)
Inductive json := JNull | JBool (b : bool) | JNumber (t : list ascii) | JString (t : list ascii).
Definition hex (c : ascii) : option nat :=
  let n := nat_of_ascii c in
  if (Nat.leb 48 n && Nat.leb n 57)%bool then Some (n - 48) else if (Nat.leb 97 n && Nat.leb n 102)%bool then Some (n - 87) else if (Nat.leb 65 n && Nat.leb n 70)%bool then Some (n - 55) else None.
(* The rest of a string after the opening quote: its characters and what follows. Escapes \uXXXX of ASCII characters only. *)
Fixpoint read_string (t : list ascii) : option (list ascii * list ascii) :=
  match t with
  | [] => None
  | c :: r =>
      if Ascii.eqb c """" then Some ([], r)
      else if Nat.ltb (nat_of_ascii c) 32 then None
      else if Ascii.eqb c "\" then
        match r with
        | "u"%char :: a :: b :: d :: e :: r' =>
            match hex a, hex b, hex d, hex e, read_string r' with
            | Some 0, Some 0, Some x, Some y, Some (s, z) => if Nat.ltb x 8 then Some (ascii_of_nat (16 * x + y) :: s, z) else None
            | _, _, _, _, _ => None
            end
        | a :: r' =>
            match (match a with """"%char => Some 34 | "\"%char => Some 92 | "/"%char => Some 47 | "b"%char => Some 8 | "f"%char => Some 12 | "n"%char => Some 10 | "r"%char => Some 13 | "t"%char => Some 9 | _ => None end), read_string r' with
            | Some n, Some (s, z) => Some (ascii_of_nat n :: s, z)
            | _, _ => None
            end
        | [] => None
        end
      else match read_string r with Some (s, z) => Some (c :: s, z) | None => None end
  end.
Definition number_char (c : ascii) : bool := existsb (Ascii.eqb c) (list_ascii_of_string "0123456789+-.eE").
Fixpoint read_number (t : list ascii) : list ascii * list ascii :=
  match t with c :: r => if number_char c then let (a, b) := read_number r in (c :: a, b) else ([], t) | [] => ([], []) end.
Fixpoint after (p t : list ascii) : option (list ascii) :=
  match p, t with [], _ => Some t | x :: p, y :: t => if Ascii.eqb x y then after p t else None | _ :: _, [] => None end.
Definition read_value (t : list ascii) : option (json * list ascii) :=
  match t with
  | """"%char :: r => match read_string r with Some (s, z) => Some (JString s, z) | None => None end
  | "n"%char :: r => match after (list_ascii_of_string "ull") r with Some z => Some (JNull, z) | None => None end
  | "t"%char :: r => match after (list_ascii_of_string "rue") r with Some z => Some (JBool true, z) | None => None end
  | "f"%char :: r => match after (list_ascii_of_string "alse") r with Some z => Some (JBool false, z) | None => None end
  | _ => match read_number t with ([], _) => None | (n, z) => Some (JNumber n, z) end
  end.
(* "name":value *)
Definition read_member (t : list ascii) : option ((list ascii * json) * list ascii) :=
  match t with
  | """"%char :: r => match read_string r with Some (k, ":"%char :: r') => match read_value r' with Some (v, z) => Some ((k, v), z) | None => None end | _ => None end
  | _ => None
  end.
(* After a member: a comma and more members, or the end of the object. [fuel]: the length of the text is enough *)
Fixpoint read_members (fuel : nat) (t : list ascii) : option (list (list ascii * json) * list ascii) :=
  match fuel with
  | 0 => None
  | S fuel =>
      match read_member t with
      | Some (m, ","%char :: r) => match read_members fuel r with Some (l, z) => Some (m :: l, z) | None => None end
      | Some (m, "}"%char :: r) => Some ([m], r)
      | _ => None
      end
  end.
Definition read_object (fuel : nat) (t : list ascii) : option (list (list ascii * json) * list ascii) :=
  match t with "{"%char :: "}"%char :: r => Some ([], r) | "{"%char :: r => read_members fuel r | _ => None end.
Fixpoint read_lines_fuel (fuel : nat) (t : list ascii) : option (list (list (list ascii * json))) :=
  match t with
  | [] => Some []
  | _ => match fuel with
         | 0 => None
         | S fuel => match read_object (length t) t with
                     | Some (o, c :: r) => if Nat.eqb (nat_of_ascii c) 10 then match read_lines_fuel fuel r with Some l => Some (o :: l) | None => None end else None
                     | _ => None
                     end
         end
  end.
Definition read_lines (t : list ascii) : option (list (list (list ascii * json))) := read_lines_fuel (length t) t.
(* An object as clients have it: one value for each name, the last one *)
Fixpoint value_of (o : list (list ascii * json)) (name : list ascii) : option json :=
  match o with [] => None | (k, v) :: o => match value_of o name with Some w => Some w | None => if list_eq_dec ascii_dec k name then Some v else None end end.

(* What a cell is in JSON, as far as JSON can say it; NotFinite has no JSON number *)
Inductive says : cell -> json -> Prop :=
| SNull : says Null JNull | SFlag b : says (Flag b) (JBool b) | SNumber t : says (Number t) (JNumber t) | SText t : says (Text t) (JString t).
(* A number as it is printed *)
Definition numeral (t : list ascii) : Prop := t <> [] /\ Forall (fun c => number_char c = true) t.
Definition printable (r : list (list ascii * cell)) : Prop := forall name t, In (name, Number t) r -> numeral t.
Definition finite (r : list (list ascii * cell)) : Prop := forall name, ~ In (name, NotFinite) r.

(* ---- Streams ---- *)
Definition rows_of (stream : list event) : list (list (list ascii * cell)) := flat_map (fun e => match e with Batch rows => rows | Failure _ => [] end) stream.
Definition succeeds (stream : list event) : Prop := forall m, ~ In (Failure m) stream.

(* ---- Whose fault an error is ---- *)
Definition server_fault (e : api_error) : Prop :=
  match e with IoError => True | DataFusionError (ObjectStoreError | IoErrorDF | InternalError | ResourcesExhausted) => True | _ => False end.

(* ---- Names in URLs (RFC 3986): characters other than letters, digits, -, ., _ and ~ are written as % and two hexadecimal digits ---- *)
Definition unreserved (c : ascii) : bool :=
  let n := nat_of_ascii c in ((Nat.leb 65 n && Nat.leb n 90) || (Nat.leb 97 n && Nat.leb n 122) || (Nat.leb 48 n && Nat.leb n 57) || Nat.eqb n 45 || Nat.eqb n 46 || Nat.eqb n 95 || Nat.eqb n 126)%bool.
Definition digit (n : nat) : ascii := ascii_of_nat (if Nat.ltb n 10 then 48 + n else 55 + n).
Definition url_encode (t : list ascii) : list ascii := flat_map (fun c => if unreserved c then [c] else ["%"%char; digit (nat_of_ascii c / 16); digit (nat_of_ascii c mod 16)]) t.
(* The paths of the documentation *)
Definition path_of (segments : list (list ascii)) : list ascii := flat_map (fun s => "/"%char :: s) segments.
Definition plain (t : list ascii) : Prop := t <> [] /\ Forall (fun c => unreserved c = true) t.
