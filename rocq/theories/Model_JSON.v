(* Model_JSON.v -- utility/JSONlike.hpp.  Strings are lists of characters; positions are nat and string::npos is None.
   Simplifications: [vec] is left out (no member function fills it), and so are str(indent), lstr and the
   initializer_list overloads (:25-37, :63-74, which write the same text as set(vector)); the map from keys to shared pointers is a list sorted by
   key, so copies of a JSONlike do not share their entries; elements of vectors are ints (to_string and operator>> of int). *)
From Coq Require Import ZArith List Bool Ascii String Lia.
Import ListNotations.
From Verif Require Import Base.
Open Scope Z_scope.

Notation text := (list ascii).
(* string literals *)
Definition st (s : string) : text := list_ascii_of_string s.
Definition quo : ascii := Ascii.ascii_of_nat 34.
Definition nl : ascii := Ascii.ascii_of_nat 10.
Definition tab : ascii := Ascii.ascii_of_nat 9.
Definition cr : ascii := Ascii.ascii_of_nat 13.
Definition among (l : list ascii) (c : ascii) : bool := existsb (Ascii.eqb c) l.
(* the character sets of :216, :224, :230, :238 (ws), :232, :144, :244, :254, :257 and :263, in this order *)
Definition ws := among [" "%char; nl; tab; cr].
Definition key_end := among [" "%char; "="%char; nl; tab].
Definition skip_vec := among [" "%char; nl; tab; cr; ","%char; "]"%char; "}"%char].
Definition skip_dict := among [" "%char; nl; tab; cr; ","%char; "}"%char].
Definition term_end := among [" "%char; nl; tab; cr; ","%char; "}"%char; "["%char].
Definition term_end2 := among [" "%char; nl; tab; ","%char; "}"%char; "["%char; "{"%char].
Definition brackets := among ["]"%char; "["%char].

(* string::find_first_of and find_first_not_of from a position *)
Fixpoint find_idx (p : ascii -> bool) (s : text) : option nat :=
  match s with [] => None | c :: s' => if p c then Some O else option_map S (find_idx p s') end.
Definition find_from (p : ascii -> bool) (s : text) (pos : nat) : option nat := option_map (Nat.add pos) (find_idx p (skipn pos s)).
Definition fof (p : ascii -> bool) (s : text) (pos : nat) : option nat := find_from p s pos.
Definition fnof (p : ascii -> bool) (s : text) (pos : nat) : option nat := find_from (fun c => negb (p c)) s pos.
(* s.substr(b,e-b); e=npos, or e<b in size_t arithmetic: up to the end *)
Definition sub (s : text) (b : nat) (e : option nat) : text :=
  match e with None => skipn b s | Some e => if (e <? b)%nat then skipn b s else firstn (e - b) (skipn b s) end.

(* end_of_clause, :262-269: the bracket closing the one at s.  [r] is the position the loop is at; when the recursive call
   returns npos the search starts again at npos+1=0.  Positions grow along a chain of calls until
   such a restart, which stops at once on a ']' and otherwise recurses for ever: running out of fuel is that stack overflow, UB *)
Fixpoint clause_loop (fuel : nat) (str : text) (r : option nat) : res (option nat) :=
  match fuel with
  | O => UB
  | S f =>
      match r with
      | None => Ok None
      | Some p =>
          if Ascii.eqb (nth p str "]"%char) "["%char then
            do s <- clause_loop f str (fof brackets str (S p));
            clause_loop f str (fof brackets str (match s with None => O | Some q => S q end))
          else Ok (Some p)
      end
  end.
Definition end_of_clause (str : text) (s : nat) : res (option nat) := clause_loop (S (S (List.length str))) str (fof brackets str (S s)).
(* end_of_term, :249-260; a round either starts further right or, after a restart in
   end_of_clause, repeats for ever, so the fuel only runs out in an endless loop *)
Fixpoint term_loop (fuel : nat) (str : text) (r : option nat) : res (option nat) :=
  match fuel with
  | O => UB
  | S f =>
      match r with
      | None => Ok None
      | Some p =>
          if Ascii.eqb (nth p str ","%char) "["%char then
            do s <- end_of_clause str p;
            match s with None => Ok None | Some q => term_loop f str (fof term_end2 str q) end
          else Ok (Some p)
      end
  end.
Definition end_of_term (str : text) (s : nat) : res (option nat) :=
  if Ascii.eqb (nth s str ","%char) quo then
    Ok (match fof (Ascii.eqb quo) str (S s) with Some r => if (S r <? List.length str)%nat then Some (S r) else None | None => None end)
  else term_loop (S (List.length str)) str (fof term_end str s).

(* std::to_string(int): decimal digits, most significant first *)
Definition digit (d : Z) : ascii := Ascii.ascii_of_nat (48 + Z.to_nat d).
Fixpoint digits (fuel : nat) (n : Z) : text :=
  match fuel with O => [] | S f => if n <? 10 then [digit n] else digits f (n / 10) ++ [digit (n mod 10)] end.
Definition to_string (z : Z) : text := if z <? 0 then "-"%char :: digits (S (Z.to_nat (- z))) (- z) else digits (S (Z.to_nat z)) z.
(* reading an int: blanks, an optional sign, digits.  None: no digit *)
Definition is_digit (c : ascii) : bool := let n := Ascii.nat_of_ascii c in (48 <=? n)%nat && (n <=? 57)%nat.
Definition dval (c : ascii) : Z := Z.of_nat (Ascii.nat_of_ascii c) - 48.
Fixpoint take_digits (s : text) : text := match s with c :: s' => if is_digit c then c :: take_digits s' else [] | [] => [] end.
Definition value_of (s : text) : Z := fold_left (fun a c => 10 * a + dval c) s 0.
Definition spaces := among [" "%char; nl; tab; cr; Ascii.ascii_of_nat 11; Ascii.ascii_of_nat 12].
Fixpoint drop_spaces (s : text) : text := match s with c :: s' => if spaces c then drop_spaces s' else s | [] => [] end.
Definition scan_nat (s : text) : option Z := match take_digits s with [] => None | l => Some (value_of l) end.
Definition scan_int (s : text) : option Z :=
  match drop_spaces s with
  | c :: s' => if Ascii.eqb c "-"%char then option_map Z.opp (scan_nat s') else if Ascii.eqb c "+"%char then scan_nat s' else scan_nat (c :: s')
  | [] => None
  end.
Definition INT_MIN : Z := - 2 ^ 31.
Definition INT_TOP : Z := 2 ^ 31 - 1.
Definition is_int (z : Z) : bool := (INT_MIN <=? z) && (z <=? INT_TOP).
(* std::stoi: invalid_argument and out_of_range are Throw *)
Definition stoi (s : text) : res Z := match scan_int s with Some z => if is_int z then Ok z else Throw | None => Throw end.
(* int v; ss>>v: at the end of the stream v stays indeterminate (UB when it is then copied), without digits it becomes 0,
   out of range it becomes the nearest int *)
Definition read_int (s : text) : res Z :=
  match drop_spaces s with
  | [] => UB
  | _ => match scan_int s with None => Ok 0 | Some z => Ok (Z.max INT_MIN (Z.min INT_TOP z)) end
  end.
(* string v; ss>>v: one word *)
Fixpoint word (s : text) : text := match s with c :: s' => if spaces c then [] else c :: word s' | [] => [] end.
Definition read_word (s : text) : res text := Ok (word (drop_spaces s)).

(* set(string), :59-61, set(int), :55-57, get_str, :112-116, get_int, :108-110 *)
Definition set_str (v : text) : text := quo :: v ++ [quo].
Definition set_int (x : Z) : text := set_str (to_string x).
Definition get_str (val : text) : text :=
  if (1 <? List.length val)%nat && Ascii.eqb (hd "0"%char val) quo && Ascii.eqb (last val "0"%char) quo then removelast (tl val) else val.
Definition get_int (val : text) : res Z := stoi (get_str val).
(* set(vector), :76-87, and set(vector<vector>), :89-106 *)
Fixpoint join (l : list text) : text := match l with [] => [] | [t] => t | t :: l' => t ++ ","%char :: join l' end.
Definition bracketed (s : text) : text := "["%char :: s ++ ["]"%char].
Definition set_vec (x : list Z) : text := bracketed (join (map to_string x)).
Definition set_vec_vec (x : list (list Z)) : text := bracketed (join (map set_vec x)).
(* get_vec(string), :132-147: a do-while loop; [s] is the int that becomes -1 at npos.  A last character that is no separator
   makes the loop stay at that place for ever; this is the only way to run out of fuel *)
Fixpoint vec_loop {A} (read : text -> res A) (fuel : nat) (x : text) (s : nat) : res (list A) :=
  match fuel with
  | O => UB
  | S f =>
      do r <- end_of_term x s;
      let r := match r with Some r => r | None => (List.length x - 1)%nat end in
      do v <- read (sub x s (Some r));
      match fnof skip_vec x r with
      | None => Ok [v]
      | Some s' => do vs <- vec_loop read f x s'; Ok (v :: vs)
      end
  end.
Definition get_vec {A} (read : text -> res A) (x : text) : res (list A) :=
  if (List.length x <? 2)%nat || negb (Ascii.eqb (hd "0"%char x) "["%char) then Ok [] else vec_loop read (S (List.length x)) x 1.
Fixpoint mapR {A B} (f : A -> res B) (l : list A) : res (list B) :=
  match l with [] => Ok [] | a :: l' => do b <- f a; do bs <- mapR f l'; Ok (b :: bs) end.
(* get_vec_vec, :123-130 *)
Definition get_vec_vec (val : text) : res (list (list Z)) := do ss <- get_vec read_word val; mapR (get_vec read_int) ss.

(* ---- dictionaries *)
Inductive json := JSON (val : text) (dict : list (text * json)) (valid : bool).
Definition jval (j : json) : text := match j with JSON v _ _ => v end.
Definition jdict (j : json) : list (text * json) := match j with JSON _ d _ => d end.
Definition jvalid (j : json) : bool := match j with JSON _ _ b => b end.
(* std::string operator< : by unsigned characters *)
Fixpoint scmp (a b : text) : comparison :=
  match a, b with
  | [], [] => Eq | [], _ => Lt | _, [] => Gt
  | c :: a', d :: b' => match Nat.compare (Ascii.nat_of_ascii c) (Ascii.nat_of_ascii d) with Eq => scmp a' b' | q => q end
  end.
(* dict[key]=v *)
Fixpoint dset (k : text) (v : json) (d : list (text * json)) : list (text * json) :=
  match d with
  | [] => [(k, v)]
  | (k', v') :: d' => match scmp k k' with Lt => (k, v) :: d | Eq => (k, v) :: d' | Gt => (k', v') :: dset k v d' end
  end.
Fixpoint dfind (k : text) (d : list (text * json)) : option json :=
  match d with [] => None | (k', v) :: d' => match scmp k k' with Eq => Some v | _ => dfind k d' end end.
(* obj[key]=value, :47-53 with JSONlikeHandle::operator=, :160-176: the entry keeps everything but its text *)
Definition assign (k v : text) (j : json) : json :=
  let e := match dfind k (jdict j) with Some e => JSON v (jdict e) (jvalid e) | None => JSON v [] true end in
  JSON (jval j) (dset k e (jdict j)) (jvalid j).
(* parse_dict, :229-247; the result says whether the end was reached (valid=true).  Coming back to an earlier position means
   an endless loop, so the fuel only runs out there *)
Fixpoint dict_loop (parse : text -> res json) (fuel : nat) (str : text) (s : option nat) (d : list (text * json)) : res (list (text * json) * bool) :=
  match fuel with
  | O => UB
  | S f =>
      match s with
      | None => Ok (d, true)
      | Some s =>
          if (s <? List.length str)%nat && (List.length d <? 1000)%nat then
            match fof key_end str s with
            | None => Ok (d, false)
            | Some e =>
                match fof (Ascii.eqb "="%char) str e with
                | None => Ok (d, false)
                | Some eq =>
                    match fnof ws str (S eq) with
                    | None => Ok (d, false)
                    | Some f0 =>
                        do g <- end_of_term str f0;
                        do j <- parse (sub str f0 g);
                        let d' := dset (sub str s (Some e)) j d in
                        match g with None => Ok (d', true) | Some g => dict_loop parse f str (fnof skip_dict str g) d' end
                    end
                end
            end
          else Ok (d, true)
      end
  end.
(* JSONlike(string), :214-227 *)
Fixpoint parse_at (depth : nat) (str : text) : res json :=
  match depth with
  | O => UB
  | S f =>
      match fnof ws str 0 with
      | None => Ok (JSON [] [] false)
      | Some s =>
          if Ascii.eqb (nth s str "0"%char) "{"%char then
            match fof (Ascii.eqb "}"%char) str s with
            | None => Ok (JSON [] [] false)
            | Some e =>
                let body := sub str (S s) (Some e) in
                do ' (d, b) <- dict_loop (parse_at f) (S (List.length body)) body (fnof ws body 0) []; Ok (JSON [] d b)
            end
          else Ok (JSON (sub str s (fof ws str 0)) [] true)
      end
  end.
Definition parse (str : text) : res json := parse_at (S (List.length str)) str.
(* str(), :275-300 *)
Fixpoint print (j : json) : text :=
  match j with
  | JSON v [] _ => v
  | JSON _ d _ => "{"%char :: join (map (fun p => fst p ++ "="%char :: print (snd p)) d) ++ ["}"%char]
  end.
