# Formal model of fwip/posix-utils in Rocq (Coq 8.16.1)

## Layout (rocq/theories)

For each component `X` of the repository:

* `XModel.v`  executable Gallina model; every definition cites file and lines in /repo.
* `XSpec.v`   small specification that does not mention the model (only data types).
* `XProofs.v` lemmas and invariants.
* `XProps.v`  the property theorems (one line `exact`), non-vacuity examples, `Print Assumptions`.

`GoBase.v` models the Go standard-library functions the code calls; `GoFacts.v`, `GoMap.v`, `NumFacts.v`,
`Utf8Facts.v` and `RuneFacts.v` are lemmas about them. `seeded/LOG.jsonl` records the wrong programs the theorems were
tried against. There `failed` lists the theorems whose proof no longer goes through or uses a lemma whose proof no
longer goes through. That is less than showing each listed statement false: an edit can also break a proof script, or a
shared lemma, of a statement that stays true. So a long list does not measure how many theorems exclude the edit; `breaks`
is the claim the edit was meant to make false, judged by reading and not itself proved. Often only the files near the edit were rebuilt, and theorems
elsewhere are then absent from the list. `MANIFEST.json` maps the properties of `properties.jsonl` to theorems.

## Conventions of the model

* A Go `string`/`[]byte` is `list ascii` (a list of 8-bit bytes); a rune is an `N`.
* A run-time panic is the value `Panic`, an `error` return is the value `Err`; `os.Exit` is a
  result carrying the status. Nothing is totalised silently.
* A loop is structural recursion, or recursion on fuel whose exhaustion is a separate result
  (`Diverge` / `OutOfFuel`) excluded, or exhibited, by a theorem.
* Go map iteration order is an oracle: theorems hold for every permutation.
* File system and goroutine schedule are explicit: an oracle or a step relation; theorems
  quantify over all of them.
* If a property is false of the code, `..._refuted` proves the negation with a witness and
  `..._partial` proves the strongest true part.

## Plan per property

| id | modelled | proof |
|----|----------|-------|
| C01-C05, C67 | pkg/txt: piece list (length, offset, reader), append buffer (possibly nil), Insert, Delete, String, naiveTable, Fuzz loop | refinement to byte strings, induction over histories; C04 exact in terms of the seams edits leave (`PieceSeamSpec.v`); C05 refuted with witness plus true part |
| C06-C09 | pkg/diff Diff (index map, overlap maps, recursion), Format | induction on fuel; invariant of the overlap table; independent normal-diff interpreter |
| C10-C11 | cmd/diff main, parseSettings, readLines | case analysis; C10 refuted |
| C12-C16 | pkg/tsort Sorter with iteration-order oracle, cmd/tsort run on arbitrary bytes, with read errors | loop invariant; C14 refuted plus true part |
| C17-C19, C68 | cmd/cksum memcrc, crctab, main | invariant: register = remainder; GF(2) polynomials as N |
| C20-C24, C69 | cmd/cmp | induction on contents; C22 refuted |
| C25-C28, C128 | cmd/head, cmd/cat | induction; C26, C28 refuted; C128 refuted, with the exact inputs on which head panics after the lines it printed |
| C29-C32 | cmd/test with stat oracle | case analysis / induction; C29 refuted plus true part |
| C33-C35 | cmd/cut, cmd/kill | C33, C34 refuted; C35 induction |
| C36-C40 | pkg/flag Parse over a store of variables | induction over structured command lines; C38, C40 refuted plus true part |
| C41-C45 | pkg/regexes | induction; C43, C44 refuted plus exact characterisation |
| C46-C49 | pkg/locale String/FromEnv, NewEra, removeComments | algebra on strings; C48 refuted plus true part |
| C50-C55, C64-C66 and later ed ones | pkg/ed editor state over the piece table | refinement to list of lines; C53, C54, C55, C66 refuted plus true part |
| C56-C58 | ed Write over a file-system model with failure/crash points | invariant over every prefix of calls |
| C59-C60, C83-C88 | ed ProcessCommands as a two-thread step relation; cmd/ed | invariant over all interleavings |
| C110-C112 | pkg/diff: Fuzz, shape and size of the printed changes | `diff_tree` of C06: leaves are changes without a common line, joined by unchanged runs |
| C113 | pkg/tsort: which topological order Order returns | invariant of the loop: result and queue together are the heads followed by the groups released so far |
| C114, C115 | pkg/regexes: exact meaning of Matches | count loop = number of accepted runes in a window; induction on the elements |
| C116 | cmd/cmp with swapped operands | parallel induction on both contents |
| C108-C109 | whole sessions of `ed f` with w, with and without failing system calls | C88 + the command loop by induction on the session; invariant of the step relation for all failures |
| C61-C63, C70-C81 | generated PEG parser ed.peg.go: PEG interpreter, grammar, actions | derivations for all numbers/texts; a relational reading of the grammar |
| C89-C97 | pkg/locale/y.go: goyacc's tables and driver, semantic actions | see "The generated locale parser" |
| C98-C107 | pkg/locale/localelex.go in front of the parser: whole files | see "Locale files" |
| C129 | pkg/ed: editing commands on texts with \r at line ends or a blank last line | the position of a line as the editor counts it; C01 for the bytes; C50, C51 and C54 refuted from it |
| C122 | pkg/ed: what $ stands for | the parsed command, then the lines of the buffer |
| C119-C121 | pkg/txt/piece_table.go with its pointers: cells in a heap, clean, append | list segments in the heap; refinement of the list model of C01 |
| C117, C118 | the tokens of a whole file; carriage returns at line ends | words of each entry by its form; line ends in the layout lemmas of C98 |
| C131 failed writes | cat, head, cksum, cmp, tsort and diff once more as the calls they make on standard output (`WriteModel.v`), proved to do what their other models say when every write succeeds | induction over the calls; an output is any function from the number of the write and its bytes to an answer |
| C132-C133 reports of syntax errors | the grammar of ed.peg.go again with the names of its rules and the furthest token (`EdErrModel.v`), proved to be the grammar of `EdPegModel.v`; translatePositions; parseError.Error | the furthest token followed through the failing alternatives; places as counts of newlines |
| C134-C135 | pkg/ed: k, m, t, r and ! as they are read; the commands that are read and not carried out (`EdNyiSpec.v`) | the parser of C61 on what follows the range; processCommand by cases |
| C136 | pkg/locale: the goroutine of the lexer, the channel and the parser as a step machine (`LocSchedModel.v`) | every schedule gives the verdict of `parse_text`: the lexer with less fuel sends a beginning of what it sends with more; the parser on a beginning of the tokens goes the same way until it waits; runs are bounded and never stuck |
| C137 | cmd/cut: the command line, with Go's package flag (`CutFlagModel.v`) against POSIX's guidelines (`CutSpec.v`) | induction on how the words are written; C137 refuted for attached arguments and groups |
| C138 | cmd/cksum `memcrc`: four bytes anywhere in the text | different windows give different checksums (a difference of at most 32 bits is noticed), and there are as many windows as checksums |
| C139 | pkg/txt `PieceTable`: number of pieces and append buffer after any edits (`PieceSpaceSpec.v` counts edits) | induction on the edits, over the loops of Insert and Delete |
| C140, C103 | pkg/locale: y.go's parser on an open channel (`LocVia*.v`) | the parser waits if and only if the tokens so far begin a definition (a certificate, checked in Coq, gives for every state and the state under it a token to feed next and a bound on the rounds left, so that every stack that can arise can be completed to acceptance); values never steer the parser except that an unreadable number stops it; hence reading a text never ends exactly if the lexer never ends and what it has sent always begins a definition |
| C141 | pkg/regexes `Matches` with a counter of calls (`RegexCostModel.v`) | the counted matcher returns the same; lower bound by doubling on a*...a*b, upper bound by induction on the elements, one factor per varying element |
| C142 | all commands but ed and locale: how a run ends | head and kill: exactly when they panic (`CommandsSpec.v` says what an argument list of head means); the others: never, with the statuses they can have |
| C143 | pkg/txt PieceTable.String and piece.Read with the reader as a parameter (`PieceReaderModel.v`) | the contract of io.ReaderAt as a predicate (`PieceReaderSpec.v`); the pieces do not depend on the content, so changing its last byte tells whether that byte is still in the text |
| C144 | pkg/ed parser: position, token index and token array as the closures of ed.peg.go change them (`EdTreeModel.v`) | Ford's semantics as an inductive relation (`EdTreeSpec.v`); induction on the expression, for any contents of the array |
| C145 | pkg/ed parser: AST and the printed syntax tree | the stack of AST holds the forest of a derivation; induction on the derivation |
| C146 | pkg/diff comparison.String (`DiffShowModel.v`) | C06 with split and join |
| C147 | pkg/locale getVal, String; cmd/locale (`LocaleModel.v`); the shell's reading of assignments is a specification (`LocaleShellSpec.v`) | words before a newline end in one way; C46 |
| C148 | pkg/diff Diff and its printed form (`DiffModel.v`) | the kept run is at least as long as what stands before and after the block; C09, C112 |
| C149 | cmd/cmp and cmd/diff together (`CmpModel.v`, `DiffModel.v`) | C20, C08, C10 and what bufio.Scanner delivers |
| C150 | pkg/tsort and cmd/tsort (`TsortModel.v`) | C12-C16, C113: the map order decides only the order of the items that wait for nothing |
| C151 | pkg/locale/y.go, yyTokname and yyErrorMessage (`LocErrModel.v`) | C140 and the tables of C74: facts about all states checked by computation, and the parser followed with another token in place of the one it stops at |
| C152 | pkg/diff/diff.go (`DiffModel.v`), the specification in `DiffRunSpec.v` | an invariant of both loops: among the pairs of places seen the best run is the first; the specification determines the result |
| C153 | pkg/diff/diff.go with a counter (`DiffCostModel.v`) | the number of rounds at each call is the number of equal pairs of lines; C152 says which calls follow |
| C154 | pkg/diff/diff.go, output.go (`DiffModel.v`) | C152: scripts for both directions; the lines printed are those of the script |
| C155 | pkg/regexes (`RegexModel.v`), pattern texts as in `RegexGramSpec.v` | C124 and C114: replacing a fragment by one read as elements that take the same beginnings of texts |
| C156 | pkg/tsort, cmd/tsort (`TsortModel.v`) | C16 for two inputs; adding a recorded pair leaves the sorter as it is |
| C157 | pkg/flag (`FlagModel.v`) | composition law for a prefix of well-formed groups (C36); the last write to a variable counts |
| C158 | cmd/cksum (`CksumModel.v`) | the difference of two checksums is the remainder of the difference of the texts modulo the POSIX generator (C17) |
| C159 | cmd/head (`HeadModel.v`) | the output of one run, read by another one (C25) |
| C160 | cmd/cmp (`CmpModel.v`) | the list printed by -l can be read in one way (C21) |
| C161 | pkg/txt PieceTable (`PieceTableModel.v`) | undo, moved edits and histories, told on plain byte strings (`PieceUndoSpec.v`) |
| C162 | pkg/ed (`EdModel.v`) | getLineAddr counts only the lines there are, so every number is as good as the nearest one |
| C163 | pkg/ed (`EdModel.v`) | each editing command replaces one run of lines (`EdCommuteSpec.v`) |
| C164 | pkg/ed (`EdModel.v`) | w reopens the file: the text is kept, the current line is not |
| C165 | cmd/cmp (`CmpModel.v`) | identity of files is an equivalence; first differences of three files |
| C166 | cmd/test (`TestModel.v`) | = as an equivalence, integer comparisons as a total order; refuted for empty and operator-like operands |
| C167 | cmd/cmp, cmd/cksum (`CmpModel.v`, `CksumModel.v`) | the two programs on the same files; converse refuted from five bytes on, exact below, distance of the differences otherwise |
| C168 | cmd/head, cmd/cmp (`HeadModel.v`, `CmpModel.v`) | head's output compared with its input; refuted for carriage returns and missing final newlines, proved otherwise |
| C169 | cmd/cat (`CatModel.v`) | groups of operands given to successive runs; place of -u; runs without operands |
| C130, C103-C106 at any place | texts that begin well and go wrong further on (`LocMidSpec.v`) | the line lemmas of C98 for the beginning; a parser that got the first part of a sentence waits |
| C103 with LC_COLLATE | what follows headers and order_end (`LocCollSpec.v`) | an invariant of the lexer's states with a measure (`LocCollProofs.v`); loops that send white space only (`LocCollHang.v`) |
| C127 | cmd/cksum: flipped bits by file size | no multiple of the generator has few terms: a verified search through all sums of powers of x, run by the kernel's virtual machine |
| C124, C125 | ParseBre: the exact grammar of patterns; C125 refuted | inversion of the parser's runs, in both directions |
| C126 | String and Text methods of pattern elements | the printed text is in the grammar of C124 |
| C123 | the text of number tokens | invariant of all runs of the lexer; numbers are read at the start of a token |

The exact statement of each is in `properties.jsonl`; `MANIFEST.json` says which theorem proves it and how far. A property
whose theorems carry `_refuted` is false of the code: the theorem shows it, by a witness or for all inputs, and `_partial`
theorems prove what is left of it.

### The generated locale parser

`LocYaccModel.v` contains y.go's tables number for number and its driver loop, one visit of the label `yystack` at a time.
`LocGramSpec.v` is localedef.y, production for production. `LocYaccCert.v` holds certificates (predecessor states, ranks
for termination, LALR items and lookahead sets) produced by an untrusted script; `LocYaccProofs.v`, `LocYaccGram.v` and
`LocYaccComplete.v` contain checkers for them, run by `vm_compute`, and the proofs that a table passing them is sound
(every reduction has the right symbols on the stack), terminating (a measure decreases) and complete (every item's
successor is taken). A wrong certificate could only make a check fail. Nothing is assumed about goyacc.
`LocYaccRest.v` follows the store through a rejected parse.

## Locale files

`LocLexModel.v` models every function of localelex.go on a lexer state (text of the current token, text ahead, Rewind
stack, tokens sent).  `parse_text` is NewLexer followed by yyParse.  The loops of the Go code that may not end take fuel;
`StillRunning` is the result when it runs out, and no positive theorem concludes it.

`LocDocSpec.v` says what a well-formed file is without reference to the lexer or the grammar: categories, keywords with the
form of their value, how a value is written, where comment lines and empty lines may stand.  C98-C101 relate it to the run
of the program.  C102 and C107 are about every text.  C103-C106 and C130 are refuted, after any
well-formed beginning of a definition.  The partial theorems of C103 exclude texts that end inside a numeric escape or
inside the quotes of yesexpr or noexpr (`LocHangSpec.v`).  With LC_COLLATE they ask for END or order_start, possibly behind
other words, after each header of the category and each order_end, and for no small letter, one blank and a byte that is not
UTF-8 in a row (`LocCollSpec.v`).  C103's refutations show that each of these can run for ever.

## Trusted base

1. **Coq's kernel** (8.16.1), including its conversion machine for `vm_compute`. No native_compute, no plugins, no flags.
2. **Axioms**: none. `Print Assumptions` follows each property theorem in its `*Props.v`; for every theorem named in
   `MANIFEST.json` it prints "Closed under the global context". There is no Admitted, no Variable or Hypothesis outside a
   section, no functor or module type.
3. **The model is the code**: that each definition in `*Model.v` says what the cited Go lines do. This was done by reading;
   nothing was run. What is left out is listed below.
4. **Go's library and language**, as modelled in `GoBase.v` and in the models: strconv.Itoa/Atoi/ParseInt (Go 1.12, the
   version in go.mod: no underscores, no 0b/0o prefixes with base 0), strings.Split/Join/Fields/TrimSpace/ToUpper,
   bufio.Scanner with ScanLines and ScanWords (64 KiB token limit and its error), UTF-8 decoding and encoding as in
   unicode/utf8, `range` over a string, int as 64-bit (`wrap64` where the code can overflow), maps with arbitrary
   iteration order, fmt's %v/%s/%d/%o/%x for the types used, fmt.Printf with no operands. From memory, not checked against
   the source of Go, which is not in the sandbox.
5. **The operating system** is a parameter: what opening, reading, stat, rename and so on answer is universally quantified
   in the theorems (per call where that matters), subject to the simplifications below.

### What is modelled and what is not

| package | modelled | left out or simplified |
|---------|----------|------------------------|
| pkg/txt | piece_table.go: NewPieceTable, Close, piece.Read as used by String, PieceTable.String, Insert, Delete, naiveTable, Fuzz; in PieceHeapModel.v again with pointers, with piece.append and clean | the reader passed to NewPieceTable is a fixed byte string (any io.ReaderAt in PieceReaderModel.v); a slice aliasing the append buffer is the buffer's contents (it is only ever appended to); the caller does not overwrite a slice it passed to Insert; piece.String, which nothing calls; Fuzz's fmt.Sscanf is a parameter |
| pkg/diff | diff.go Diff and comparison.String, output.go Format, fmtRange, basicOutput, fuzz.go all functions | slices have capacity = length in slice expressions |
| cmd/diff | main, parseSettings, readLines | the text of strconv's errors; failing writes only in WriteModel.v |
| pkg/tsort, cmd/tsort | Sorter.Add, heads, isBlocked, Order; run, main | failing writes only in WriteModel.v; map order is an oracle queried per iteration |
| cmd/cksum | memcrc with its table, run, main | lengths are not limited to 63 bits; failing writes only in WriteModel.v |
| cmd/cmp | parseSettings, open, cmp, main | counters are unbounded (overflow at 2^63 bytes); readers deliver bytes then an end or an error |
| cmd/head, cmd/cat | all functions | failing writes only in WriteModel.v; the text of strconv's errors; the panic trace on standard error |
| cmd/cut | checkArgs, main; Go's package flag with the flags of cut | the package flag is not in /repo: FlagSet.Parse and parseOne are modelled from memory (CutFlagModel.v), which is an assumption; the text of Usage and the verb %q are parameters |
| cmd/kill | main, signal table | the kill system call is a parameter; strings.ToUpper only changes ASCII letters (other letters never give a signal name) |
| cmd/test | all functions | stat and lstat are parameters; the text of strconv's errors |
| cmd/tail | nothing | the package does not compile (parseSettings uses fields that the type settings does not have), so it has no behaviour |
| cmd/locale, pkg/locale | locale.go: getVal, String, FromEnv; time.go: NewEra; localelex.go: all functions; y.go: Parse with tables, assign functions; cmd/locale main | os.Getenv is a parameter; Printf directives with `*` or `[` give no value; the error recovery after a syntax error is dead code, because Lexer.Error is go-lexer's, which panics when no ErrorHandler is set (the message, yyErrorMessage and yyTokname, is in LocErrModel.v); yyDebug output (it is 0) with yyStatname; Lookahead; EmptyMonetary; the function main in locale.go, which nothing calls; the package github.com/bbuck/go-lexer is not in /repo: its Next, Peek, Rewind, Take, Emit, Current and Error are modelled from memory (LocLexModel.v, top), which is an assumption; parse_text lets the goroutine of the lexer send everything before the parser starts; LocSchedModel.v has both as a step machine with a channel of any capacity, and C136 proves that they give the same verdict |
| pkg/flag | Parse, BoolVar, IntVar, StringVar, execute | variables are numbered cells of a store |
| pkg/regexes | ParseBre, parseCount, readUntil, Matches, elementsMatch, Text, String | the count expression `breCountRe` is modelled by hand, since Go's regexp is not; breParen with its methods is never constructed |
| pkg/ed | address.go: setDefaultAddresses with its table; command.go; ed.go except Quit; ed.peg.go: the rules, Init, Parse, Execute; in EdTreeModel.v the rules again as a machine with the token array, Add, Trim, AST, print | parseAddresses, parseAddress and Itor.Quit, which nothing calls; unsaved is the constant false; what debug writes on standard error; the coloured printing and Print of the token list in ed.peg.go; Go's regexp is the parameter `compile`; growth of append's backing array is the parameter `capacity`; the text of a failed system call is `errtext`, of a syntax error `perr` (given by `EdErrModel.v`, with strconv.Quote as the parameter `quote`; the theorems on commands hold for any); files are a map from names to contents (no permissions, links, directories); which system calls fail during the k-th command is an oracle; reading standard input does not fail; the debugging output on standard output is modelled, the final Close of the output is not; when a command panics the step relation keeps the files as before it, those within a w being what `at_a_moment` (C109) ranges over; a power failure (data not synced) is not modelled |
| cmd/ed | main, process | as pkg/ed |

Facts of the world no model here exhibits: memory exhaustion, stack overflow (recursion depth is unbounded in the model),
power loss between system calls other than at the crash points of C56-C58, signals, and terminals.

## Not expressible

None of the listed properties is outside the models.
