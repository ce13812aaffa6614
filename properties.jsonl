{"id": "C01", "title": "PieceTable is a byte string under in-range edits", "statement": "After any sequence of Insert(text, at) with 0<=at<=len and Delete(n, at) with 0<=at, 0<=n, at+n<=len on NewPieceTable(r, len r), String() returns exactly the bytes obtained by doing the same edits on a plain byte string, and no operation panics.", "quantifier": "every original content, every finite history of in-range edits", "why_tests_cant": "piece splitting depends on the whole edit history; tests and the fuzz corpus only sample histories", "anchors": ["pkg/txt/piece_table.go:NewPieceTable", "pkg/txt/piece_table.go:PieceTable.Insert", "pkg/txt/piece_table.go:PieceTable.Delete", "pkg/txt/piece_table.go:PieceTable.String"]}
{"id": "C02", "title": "The fuzz oracle never trips", "statement": "For every input script, the differential driver Fuzz (piece table against naiveTable) never reaches its panic(\"problem\"), and naiveTable itself implements splice-in / cut-out on byte strings.", "quantifier": "every original line and every list of parsed (type, position, argument) commands", "why_tests_cant": "go-fuzz explores finitely many scripts", "anchors": ["pkg/txt/piece_table.go:Fuzz", "pkg/txt/piece_table.go:naiveTable"]}
{"id": "C03", "title": "Insert past the end fails loudly, never silently", "statement": "Insert at a position beyond the current length panics and at any position 0..len succeeds; a rejected Insert never changes what String() returns.", "quantifier": "every reachable table and every position >= 0", "why_tests_cant": "position space and history are unbounded", "anchors": ["pkg/txt/piece_table.go:PieceTable.Insert"]}
{"id": "C04", "title": "Delete reaching past the end truncates", "statement": "Delete(n, at) with at+n beyond the end removes everything from at onward, whatever the edit history.", "quantifier": "every reachable table, every at<=len, every n", "why_tests_cant": "single-piece tables behave, only certain histories (several pieces) expose the violation", "anchors": ["pkg/txt/piece_table.go:PieceTable.Delete"]}
{"id": "C05", "title": "The zero PieceTable is usable", "statement": "An empty (zero value) PieceTable accepts any sequence of in-range inserts like an empty byte string does.", "quantifier": "every sequence of inserts on the zero value", "why_tests_cant": "needs a history of at least two inserts on the zero value", "anchors": ["pkg/txt/piece_table.go:PieceTable.Insert", "cmd/ed/main.go:process"]}
{"id": "C06", "title": "Diff loses nothing: both inputs can be reassembled", "statement": "Concatenating the unchanged and removed lines of Diff(old,new) gives old, and the unchanged and added lines gives new; Diff terminates without panicking.", "quantifier": "every pair of line lists", "why_tests_cant": "recursive splitting on arbitrary inputs", "anchors": ["pkg/diff/diff.go:Diff", "pkg/diff/fuzz.go:assembleChanges"]}
{"id": "C07", "title": "Printed diff is a correct patch", "statement": "Interpreting the text printed by Format(Diff(old,new)) as a POSIX normal-format diff and applying it to old yields new, and applying it in reverse to new yields old.", "quantifier": "every pair of files (lists of newline-free lines)", "why_tests_cant": "line-number bookkeeping must be right for every change pattern", "anchors": ["pkg/diff/output.go:basicOutput", "pkg/diff/output.go:fmtRange", "pkg/diff/output.go:Format"]}
{"id": "C08", "title": "Empty diff means identical files", "statement": "Format(Diff(old,new)) is the empty string exactly when old = new.", "quantifier": "every pair of line lists", "why_tests_cant": "an 'only if' over all unequal inputs", "anchors": ["pkg/diff/diff.go:Diff", "pkg/diff/output.go:Format"]}
{"id": "C09", "title": "The longest common run is kept", "statement": "Diff(old,new) reports as unchanged a run of lines at least as long as any run of consecutive lines occurring in both files; in particular files sharing a line always get an unchanged block.", "quantifier": "every pair of files and every common run", "why_tests_cant": "maximality over all common substrings", "anchors": ["pkg/diff/diff.go:Diff"]}
{"id": "C10", "title": "diff command: exit status and unreadable operands", "statement": "diff exits 0 for identical files, 1 for different files and >1 when an operand cannot be read.", "quantifier": "every pair of file contents, present or missing", "why_tests_cant": "status must be right for every content pair", "anchors": ["cmd/diff/main.go:main", "cmd/diff/main.go:readLines"]}
{"id": "C11", "title": "diff command: operand parsing", "statement": "diff argument parsing succeeds exactly when two non-empty file operands remain after removing recognised options, options may appear in any position, and -C/-U at the end of the line or a third operand are rejected; the number of context lines is that of the last -C/-U, or 3.", "quantifier": "every argument list", "why_tests_cant": "unbounded argument lists", "anchors": ["cmd/diff/main.go:parseSettings"]}
{"id": "C12", "title": "Order is a topological order whatever the map iteration order", "statement": "If Order succeeds, its output has no duplicates, lists exactly the items the sorter currently knows (as a key or as a successor), and places each item before all of its recorded successors, for every iteration order the Go runtime picks.", "quantifier": "every history of Add calls and every map iteration order", "why_tests_cant": "Go randomises map iteration; a test sees one order per run", "anchors": ["pkg/tsort/tsort.go:Sorter.Order", "pkg/tsort/tsort.go:Sorter.heads"]}
{"id": "C13", "title": "Order fails exactly on cycles", "statement": "Order returns an error if and only if the recorded precedence relation contains a cycle; it always terminates.", "quantifier": "every history of Add calls and every map iteration order", "why_tests_cant": "cycle detection over arbitrary graphs and orders", "anchors": ["pkg/tsort/tsort.go:Sorter.Order", "pkg/tsort/tsort.go:Sorter.isBlocked"]}
{"id": "C14", "title": "Every added constraint is honoured", "statement": "Every item ever passed to Add appears in the output of a successful Order and every adjacent pair passed to Add is ordered.", "quantifier": "every history of Add calls", "why_tests_cant": "depends on the interleaving of single-item and multi-item Adds", "anchors": ["pkg/tsort/tsort.go:Sorter.Add"]}
{"id": "C15", "title": "Order consumes the sorter", "statement": "After a successful Order the sorter is empty, so a second Order returns no items and no error; after a failed Order exactly the items that could not be ordered remain and Order keeps failing.", "quantifier": "every history", "why_tests_cant": "two-call histories over arbitrary graphs", "anchors": ["pkg/tsort/tsort.go:Sorter.Order"]}
{"id": "C16", "title": "tsort command: pairs in, one item per line out", "statement": "tsort reads blank-separated words in pairs, prints a topological order one item per line with status 0, or on an odd word count, or on a cycle, prints nothing on stdout and exits 1.", "quantifier": "every input text", "why_tests_cant": "all inputs and all map orders", "anchors": ["cmd/tsort/main.go:run", "cmd/tsort/main.go:die"]}
{"id": "C17", "title": "cksum is the POSIX CRC", "statement": "memcrc(b) is the complement of the remainder modulo G(x) of (b followed by its length, least significant octet first, no leading zero octets) times x^32, coefficients over GF(2).", "quantifier": "every byte string", "why_tests_cant": "2^8n inputs; the 256-entry table and the length extension must be right for all", "anchors": ["cmd/cksum/cksum.go:memcrc", "cmd/cksum/cksum.go:crctab"]}
{"id": "C18", "title": "cksum detects every short burst", "statement": "Two byte strings of equal length that differ, and differ only inside a window of 32 consecutive bits, have different checksums.", "quantifier": "every length, every content, every window", "why_tests_cant": "quantifies over pairs of arbitrary files", "anchors": ["cmd/cksum/cksum.go:memcrc"]}
{"id": "C19", "title": "cksum command: one line per operand, in order", "statement": "cksum prints '<crc> <octets> <name>' for each operand in order, standard input when there are none, and stops with status 1 at the first operand that cannot be opened or read.", "quantifier": "every operand list and file system content", "why_tests_cant": "unbounded operand lists", "anchors": ["cmd/cksum/main.go:main", "cmd/cksum/main.go:run"]}
{"id": "C20", "title": "cmp finds the first difference", "statement": "Without -l, cmp exits 0 and is silent iff the contents are equal; otherwise exits 1 and reports either the 1-based byte number and line number of the first difference or EOF on the file that is a proper prefix.", "quantifier": "every pair of contents", "why_tests_cant": "position arithmetic over unbounded files", "anchors": ["cmd/cmp/main.go:cmp"]}
{"id": "C21", "title": "cmp -l lists all differences", "statement": "cmp -l prints exactly the lines 'i o1 o2' (decimal position, octal bytes) for all positions where both files have a byte and the bytes differ, in increasing order.", "quantifier": "every pair of contents", "why_tests_cant": "all positions of all files", "anchors": ["cmd/cmp/main.go:cmp"]}
{"id": "C22", "title": "cmp -l reports differences in its exit status", "statement": "cmp -l exits 1 whenever the contents differ.", "quantifier": "every pair of contents", "why_tests_cant": "only equal-length differing files under -l expose it", "anchors": ["cmd/cmp/main.go:cmp", "cmd/cmp/main.go:main"]}
{"id": "C23", "title": "cmp -s writes nothing to standard output and keeps the status", "statement": "With -s nothing is written to standard output and the exit status is the same as without -s (no -l).", "quantifier": "every pair of contents and readers", "why_tests_cant": "relational property over all inputs", "anchors": ["cmd/cmp/main.go:cmp"]}
{"id": "C24", "title": "cmp operand parsing", "statement": "The first two operands other than -l/-s become the files, flags may appear anywhere, a third is an error with status 2, and an unopenable operand gives status 2.", "quantifier": "every argument list", "why_tests_cant": "unbounded argument lists", "anchors": ["cmd/cmp/main.go:parseSettings", "cmd/cmp/main.go:main"]}
{"id": "C25", "title": "head prints the first n lines of each file", "statement": "For operands that can be opened and whose lines are shorter than 65536 bytes, head -n N prints, per file, the first min(N, lines) lines each terminated by a newline, with '==> name <==' headers (blank-line separated) iff there are several operands.", "quantifier": "every N, operand list and contents", "why_tests_cant": "unbounded contents and operand lists", "anchors": ["cmd/head/main.go:process", "cmd/head/main.go:parseSettings"]}
{"id": "C26", "title": "head without operands reads standard input", "statement": "Invoked with no arguments head prints the first ten lines of standard input.", "quantifier": "every standard input", "why_tests_cant": "a behaviour for all inputs", "anchors": ["cmd/head/main.go:parseSettings"]}
{"id": "C27", "title": "cat concatenates", "statement": "cat writes to standard output exactly the contents of its operands in order ('-' is standard input, no operands means standard input, -u is ignored), up to the first operand that fails, of which it writes the readable part.", "quantifier": "every operand list and file contents, any failing operand position", "why_tests_cant": "unbounded operand lists", "anchors": ["cmd/cat/main.go:main", "cmd/cat/main.go:writeFile"]}
{"id": "C28", "title": "cat reports failure", "statement": "cat exits with non-zero status when some operand could not be opened or read.", "quantifier": "every operand list", "why_tests_cant": "needs every failure position", "anchors": ["cmd/cat/main.go:main"]}
{"id": "C29", "title": "test follows the POSIX argument-count rules", "statement": "For 0 to 3 arguments test evaluates as POSIX prescribes by argument count (binary primary first for three arguments, then negation, ...).", "quantifier": "every argument list, every file system", "why_tests_cant": "string operands are arbitrary and may look like operators", "anchors": ["cmd/test/main.go:parse"]}
{"id": "C30", "title": "test integer comparisons", "statement": "For integers a b in the 64-bit range written in decimal, 'a -op b' is true iff the comparison holds, and a non-integer operand yields an error (status 2).", "quantifier": "every pair of integers", "why_tests_cant": "all integers, all operators", "anchors": ["cmd/test/tests.go:numcmp", "cmd/test/tests.go:infixMap"]}
{"id": "C31", "title": "test file primaries reflect the stat result", "statement": "Each supported file primary is true exactly when the (l)stat of the operand succeeds and has the corresponding type, mode bit or size; a missing file is false, not an error.", "quantifier": "every path and every file system state", "why_tests_cant": "all mode words", "anchors": ["cmd/test/tests.go:flagMap", "cmd/test/tests.go:modeIs", "cmd/test/tests.go:info"]}
{"id": "C32", "title": "test negation", "statement": "'! expr' (expr of one or more arguments) inverts truth, preserves errors, and cancels in pairs.", "quantifier": "every argument list", "why_tests_cant": "arbitrary nesting", "anchors": ["cmd/test/main.go:parse"]}
{"id": "C33", "title": "cut accepts a single list option", "statement": "cut accepts an invocation with exactly one of -b, -c, -f.", "quantifier": "every option value", "why_tests_cant": "must hold for all values", "anchors": ["cmd/cut/main.go:checkArgs"]}
{"id": "C34", "title": "kill delivers the requested signal", "statement": "kill -s NAME pid (or -N pid) delivers exactly that signal to exactly that pid.", "quantifier": "every signal name/number and pid", "why_tests_cant": "all signals", "anchors": ["cmd/kill/main.go:main"]}
{"id": "C35", "title": "kill rejects bad arguments without signalling", "statement": "An unknown signal name, a non-numeric -N or a non-numeric pid makes kill exit 2 with no signal sent; with valid arguments the last pid wins.", "quantifier": "every argument list", "why_tests_cant": "unbounded argument lists", "anchors": ["cmd/kill/main.go:main", "cmd/kill/main.go:signalMap"]}
{"id": "C36", "title": "Option parser round trip", "statement": "Any command line built from groups of registered boolean flags, optionally ending in a value flag whose value is the next argument, followed by '--' or a non-option, sets exactly the mentioned variables to the mentioned values (last one wins) and returns exactly the remaining arguments.", "quantifier": "every registration, every such command line", "why_tests_cant": "unbounded command lines, any rune as flag name", "anchors": ["pkg/flag/parse.go:Parser.Parse", "pkg/flag/flag.go"]}
{"id": "C37", "title": "Positional arguments are an untouched suffix", "statement": "Whenever Parse succeeds the returned slice is a suffix of Input; arguments from the first non-option (or after '--') onward are never interpreted as flags.", "quantifier": "every registration and argument list", "why_tests_cant": "all argument lists", "anchors": ["pkg/flag/parse.go:Parser.Parse"]}
{"id": "C38", "title": "Attached option arguments", "statement": "-pVALUE gives value flag p the value VALUE and nothing else (POSIX guideline 6).", "quantifier": "every value text", "why_tests_cant": "depends on which characters of VALUE happen to be flags", "anchors": ["pkg/flag/parse.go:Parser.Parse"]}
{"id": "C39", "title": "Integer flags", "statement": "An integer flag given the decimal text of any int64 stores that value; text that is not an integer yields an error and leaves the variable unchanged.", "quantifier": "every int64 and every text", "why_tests_cant": "2^64 values", "anchors": ["pkg/flag/flag.go:intFlag.execute"]}
{"id": "C40", "title": "Unknown flags and missing values are reported as errors", "statement": "Parse returns an error (never panics) for an unregistered flag or a value flag with no argument.", "quantifier": "every registration and argument list", "why_tests_cant": "all argument lists", "anchors": ["pkg/flag/parse.go:Parser.Parse"]}
{"id": "C41", "title": "A literal pattern matches exactly the strings containing it", "statement": "For a pattern without special characters, Matches(s) is true iff the pattern occurs in s as a substring; with a leading ^ iff it is a prefix.", "quantifier": "every literal pattern and every input", "why_tests_cant": "all pattern/input pairs", "anchors": ["pkg/regexes/bre.go:ParseBre", "pkg/regexes/bre_evaluate.go:Bre.Matches"]}
{"id": "C42", "title": "No false negatives", "statement": "Whenever the input contains a match of the parsed pattern in the textbook sense (each element repeated between min and max times), Matches returns true.", "quantifier": "every parsed pattern and every input", "why_tests_cant": "backtracking over all inputs", "anchors": ["pkg/regexes/bre_evaluate.go:elementsMatch"]}
{"id": "C43", "title": "No false positives", "statement": "Matches returns true only if the input contains a textbook match of the pattern.", "quantifier": "every pattern and input", "why_tests_cant": "needs particular repeated elements and inputs", "anchors": ["pkg/regexes/bre_evaluate.go:elementsMatch"]}
{"id": "C44", "title": "The right anchor anchors", "statement": "A pattern ending in $ matches only strings with a match ending at the end of the string.", "quantifier": "every pattern and input", "why_tests_cant": "all inputs", "anchors": ["pkg/regexes/bre_evaluate.go:Bre.Matches", "pkg/regexes/bre_evaluate.go:elementsMatch"]}
{"id": "C45", "title": "Repetition counts parse to what they say", "statement": "c{m}, c{m,}, c{m,n}, c* and c parse to the repetition ranges m..m, m.., m..n, 0.. and 1..1; an unterminated or malformed { or [ panics instead of returning.", "quantifier": "every m, n and following text", "why_tests_cant": "all counts", "anchors": ["pkg/regexes/bre.go:parseCount", "pkg/regexes/bre.go:readUntil"]}
{"id": "C46", "title": "Locale report follows the LC_ALL > LC_x > LANG precedence", "statement": "The locale command prints LANG, the six LC_ categories and LC_ALL in order; each category shows LC_ALL in quotes if set, else its own value, else LANG in quotes.", "quantifier": "every environment", "why_tests_cant": "all environments", "anchors": ["pkg/locale/locale.go:Locale.String", "pkg/locale/locale.go:Locale.getVal", "pkg/locale/locale.go:FromEnv"]}
{"id": "C47", "title": "Era strings parse field by field", "statement": "NewEra of direction:offset:start:end:name:format recovers every field for all field values (format may itself contain colons).", "quantifier": "every field value", "why_tests_cant": "all strings", "anchors": ["pkg/locale/time.go:NewEra"]}
{"id": "C48", "title": "Malformed eras are rejected", "statement": "NewEra returns an error for too few fields, a bad direction or a non-integer offset.", "quantifier": "every malformed input", "why_tests_cant": "all malformed inputs", "anchors": ["pkg/locale/time.go:NewEra"]}
{"id": "C49", "title": "Comments are stripped and continued lines joined", "statement": "Preprocessing a locale definition removes exactly the comment lines and the escape_char/comment_char directives handled there, joins continued lines, and leaves other lines unchanged.", "quantifier": "every definition text", "why_tests_cant": "all texts", "anchors": ["pkg/locale/localelex.go:removeComments", "pkg/locale/localelex.go:checkSpecialWord"]}
{"id": "C50", "title": "ed editing commands act on a list of lines", "statement": "On a buffer of newline-terminated lines, na, ni, m,nc and m,nd transform the list of lines as POSIX says and leave all other lines untouched.", "quantifier": "every buffer content, every valid address, every inserted text", "why_tests_cant": "unbounded buffers and histories", "anchors": ["pkg/ed/ed.go:Itor.processCommand", "pkg/ed/ed.go:Itor.insertBeforeLine", "pkg/ed/ed.go:Itor.Delete", "pkg/ed/ed.go:Itor.getLineAddr"]}
{"id": "C51", "title": "ed histories refine a line editor", "statement": "Any sequence of valid a, i, c, d, p, n, = commands with numeric addresses gives the same final buffer and the same printed output as an abstract editor on a list of lines.", "quantifier": "every finite history of valid commands", "why_tests_cant": "history dependence through the piece table", "anchors": ["pkg/ed/ed.go:Itor.processCommand"]}
{"id": "C52", "title": "ed printing does not modify", "statement": "p, n and = print the addressed lines (numbered, or the address) and change neither the buffer nor the file.", "quantifier": "every buffer and valid range", "why_tests_cant": "all buffers", "anchors": ["pkg/ed/ed.go:Itor.Print", "pkg/ed/ed.go:Itor.number"]}
{"id": "C53", "title": "ed keeps a valid current line", "statement": "After a, c or d the current line is a line of the buffer (last line added, or line after the deletion).", "quantifier": "every buffer and command", "why_tests_cant": "boundary positions of arbitrary buffers", "anchors": ["pkg/ed/ed.go:Itor.processCommand", "pkg/ed/ed.go:linesIn"]}
{"id": "C54", "title": "ed edits the end of files lacking a final newline", "statement": "Appending after, or deleting, the last line works whether or not the file ends in a newline.", "quantifier": "every buffer", "why_tests_cant": "interaction with edit history", "anchors": ["pkg/ed/ed.go:Itor.getLineAddr"]}
{"id": "C55", "title": "ed preserves lines that contain carriage returns or are blank at the end", "statement": "Deleting or printing a line addresses that same line when lines carry \\r or the buffer ends with blank lines.", "quantifier": "every buffer", "why_tests_cant": "all contents", "anchors": ["pkg/ed/ed.go:Itor.getLines", "pkg/ed/ed.go:Itor.getLineAddr"]}
{"id": "C56", "title": "ed write is atomic for the edited file", "statement": "At every crash point of Write (between any two file-system calls) the edited file holds either its old contents or the complete new contents, and after success exactly the buffer; no other file than FILE and FILE.swp changes.", "quantifier": "every file system state, buffer, and crash/failure point", "why_tests_cant": "crash points", "anchors": ["pkg/ed/ed.go:Itor.Write"]}
{"id": "C57", "title": "ed survives a failed write", "statement": "If w fails, the buffer is still usable afterwards.", "quantifier": "every failure point", "why_tests_cant": "fault injection at each call", "anchors": ["pkg/ed/ed.go:Itor.Write", "pkg/ed/ed.go:Itor.closeFile"]}
{"id": "C58", "title": "ed w honours its range and file name", "statement": "m,nw FILE writes exactly the addressed lines to FILE.", "quantifier": "every range and name", "why_tests_cant": "all ranges", "anchors": ["pkg/ed/ed.go:Itor.processCommand", "pkg/ed/ed.go:Itor.Write"]}
{"id": "C59", "title": "ed command results are schedule independent", "statement": "For every interleaving of the parser goroutine and the command loop, the sequence of executed commands, the final buffer and the sequence of command results are the same; only a syntax-error message may move, and only before the result of the immediately preceding command. After q, or after a command that ends the program, syntax-error messages for the input still to come may or may not appear.", "quantifier": "every input and every goroutine schedule", "why_tests_cant": "schedules", "anchors": ["pkg/ed/ed.go:Itor.ProcessCommands"]}
{"id": "C60", "title": "ed stops at q", "statement": "No command after q is executed and the program terminates, for every schedule.", "quantifier": "every input and schedule", "why_tests_cant": "schedules", "anchors": ["pkg/ed/ed.go:Itor.ProcessCommands"]}
{"id": "C61", "title": "ed command syntax: numeric addresses", "statement": "For all decimal m, n and every range command letter x, the line 'm,nx' (and 'mx', ',nx', 'm,x', ',x', 'x') parses to that command with those addresses.", "quantifier": "every pair of numbers, every command letter", "why_tests_cant": "all numbers", "anchors": ["pkg/ed/ed.peg.go", "pkg/ed/ed.peg"]}
{"id": "C62", "title": "ed address offsets are added", "statement": "An address followed by +k or -k denotes the line k after/before it.", "quantifier": "every base address and offset", "why_tests_cant": "all offsets", "anchors": ["pkg/ed/ed.peg", "pkg/ed/ed.go:Itor.addrLine"]}
{"id": "C63", "title": "ed inserts the text that was typed", "statement": "The text between an a/i/c command and the terminating '.' is inserted byte for byte, including non-ASCII text.", "quantifier": "every text without a lone '.' line", "why_tests_cant": "all texts", "anchors": ["pkg/ed/ed.peg.go:Execute", "pkg/ed/ed.peg.go:Init"]}
{"id": "C64", "title": "ed regex addresses find the next matching line, wrapping", "statement": "/re/ denotes the first matching line after the current one, wrapping around to and including the current line, and an unmatched regex is reported; the search terminates.", "quantifier": "every buffer, current line and regex", "why_tests_cant": "all buffers; nontermination cannot be tested", "anchors": ["pkg/ed/ed.go:Itor.regexMatch", "pkg/ed/ed.go:Itor.addrLine"]}
{"id": "C65", "title": "ed default addresses", "statement": "Commands without addresses use the POSIX defaults for their kind, and explicit addresses are never replaced.", "quantifier": "every command kind and address", "why_tests_cant": "whole table times all addresses", "anchors": ["pkg/ed/address.go:setDefaultAddresses", "pkg/ed/address.go:defaultAddresses"]}
{"id": "C66", "title": "ed reversed ranges are rejected", "statement": "A range whose first address exceeds its second is an error and leaves the buffer unchanged.", "quantifier": "every buffer and reversed range", "why_tests_cant": "all ranges", "anchors": ["pkg/ed/ed.go:Itor.Delete", "pkg/ed/ed.go:Itor.Print"]}
{"id": "C67", "title": "The differential fuzz driver never crashes", "statement": "Fuzz returns normally on every input script (no slice-bounds or other run-time panic besides the deliberate panic(\"problem\")).", "quantifier": "for all byte strings given to Fuzz and all results of scanning its lines", "why_tests_cant": "the crash needs a 64-bit overflow in at+length, which no sampled script contains", "anchors": ["pkg/txt/piece_table.go: Fuzz", "pkg/txt/piece_table.go: naiveTable.Delete"]}
{"id": "C68", "title": "cksum detects any two flipped bits below 512 MiB", "statement": "Two files of equal length, below 2^32 bits, that differ in exactly two bits, however far apart, have different checksums.", "quantifier": "every content, every pair of bit positions", "why_tests_cant": "relies on the multiplicative order of x modulo the generator; quantifies over all pairs of positions in all files", "anchors": ["cmd/cksum/cksum.go:memcrc", "cmd/cksum/cksum.go:crctab"]}
{"id": "C69", "title": "cmp -s prints nothing at all", "statement": "With -s cmp writes nothing to standard output or standard error when both files can be opened and read, whatever they contain.", "quantifier": "every pair of readable contents", "why_tests_cant": "only files of which one is a prefix of the other expose it", "anchors": ["cmd/cmp/main.go:cmp", "cmd/cmp/main.go:main"]}
{"id": "C70", "title": "ed editing commands print nothing", "statement": "A valid a, i, c or d writes nothing to the output.", "quantifier": "every buffer and valid command", "why_tests_cant": "all buffers and commands", "anchors": ["pkg/ed/ed.go:Itor.ProcessCommands"]}
{"id": "C71", "title": "ed $c replaces the last line", "statement": "$c removes the last line of the buffer and puts the typed text in its place.", "quantifier": "every buffer and text", "why_tests_cant": "address re-evaluation between deletion and insertion depends on the buffer", "anchors": ["pkg/ed/ed.go:Itor.processCommand"]}
{"id": "C72", "title": "ed reports addresses outside the buffer", "statement": "p or n with an address that is not a line of the buffer is reported as an error and the editor goes on.", "quantifier": "every buffer and invalid address", "why_tests_cant": "all buffers and addresses", "anchors": ["pkg/ed/ed.go:Itor.Print", "pkg/ed/ed.go:Itor.number"]}
{"id": "C73", "title": "Itor.String gives the buffer ended by a newline", "statement": "String returns the text of the buffer, with a newline added if it lacks one, for every buffer including the empty one.", "quantifier": "every buffer", "why_tests_cant": "all buffers", "anchors": ["pkg/ed/ed.go:Itor.String"]}
{"id": "C74", "title": "ed printing sets the current line", "statement": "After p, n or a lone address the current line is the last line printed.", "quantifier": "every buffer and range", "why_tests_cant": "all buffers and ranges", "anchors": ["pkg/ed/ed.go:Itor.processCommand"]}
{"id": "C75", "title": "ed e loads the file", "statement": "e FILE makes the contents of FILE the buffer and the last line the current line; if FILE cannot be read the editor is left unchanged.", "quantifier": "every file system, editor state and failure", "why_tests_cant": "all contents and failure points", "anchors": ["pkg/ed/ed.go:Itor.Edit"]}
{"id": "C76", "title": "ed without a file accepts commands", "statement": "Starting with an empty buffer and no file name, any number of a and i commands can be given.", "quantifier": "every history", "why_tests_cant": "the failure needs two insertions on the zero value", "anchors": ["cmd/ed/main.go", "pkg/ed/ed.go:Itor.insertBeforeLine"]}
{"id": "C77", "title": "ed's generated parser implements its grammar", "statement": "For every input, the generated parser ed.peg.go accepts and reads it exactly as the grammar ed.peg says.", "quantifier": "every input", "why_tests_cant": "all inputs; the two files have diverged only where blanks are involved", "anchors": ["pkg/ed/ed.peg", "pkg/ed/ed.peg.go"]}
{"id": "C78", "title": "ed's parser always ends and captures text inside the input", "statement": "For every input the parser returns (tokens or a syntax error), and every captured range lies inside the input, so no slice expression panics.", "quantifier": "every input, any bytes", "why_tests_cant": "termination and absence of panics over all inputs", "anchors": ["pkg/ed/ed.peg.go:Init", "pkg/ed/ed.peg.go:Parse", "pkg/ed/ed.peg.go:Execute"]}
{"id": "C79", "title": "text typed into ed is never executed", "statement": "Nothing in the text of an a, i or c command is executed as a command, unless it follows a line consisting of a single '.'.", "quantifier": "every text", "why_tests_cant": "all texts; needs a line of a dot and a blank", "anchors": ["pkg/ed/ed.peg", "pkg/ed/ed.go:Itor.ProcessCommands"]}
{"id": "C80", "title": "ed accepts a, i and c without text", "statement": "a, i or c followed at once by '.', or ended by the end of the input, is accepted.", "quantifier": "every address form", "why_tests_cant": "all address forms", "anchors": ["pkg/ed/ed.peg:text", "pkg/ed/ed.peg.go"]}
{"id": "C81", "title": "ed's semicolon sets the current line", "statement": "In 'a;b' the current line is set to a before b is evaluated.", "quantifier": "every pair of addresses and buffer", "why_tests_cant": "all addresses and buffers", "anchors": ["pkg/ed/ed.peg:range", "pkg/ed/ed.go:Itor.processCommand"]}
{"id": "C82", "title": "ed = prints the line number", "statement": "'n=' and 'n =' print n.", "quantifier": "every number, any blanks", "why_tests_cant": "all numbers", "anchors": ["pkg/ed/ed.peg:addrCmd", "pkg/ed/ed.go:Itor.addrLine"]}
{"id": "C83", "title": "ed writes only its replies and errors", "statement": "What ed writes to standard output is only the replies to commands and error messages.", "quantifier": "every input and schedule", "why_tests_cant": "all inputs and schedules", "anchors": ["pkg/ed/ed.go:Itor.ProcessCommands", "pkg/ed/ed.go:Itor.Write", "pkg/ed/ed.peg:text"]}
{"id": "C84", "title": "ed's input is split into commands without loss", "statement": "Every line read by ed becomes part of exactly one command given to the parser, in order, and the lines between an a, i or c command and the next '.' line are given to the parser together with it.", "quantifier": "every input", "why_tests_cant": "all inputs", "anchors": ["pkg/ed/ed.go:Itor.ProcessCommands"]}
{"id": "C85", "title": "ed q and Q quit", "statement": "q and Q end the program.", "quantifier": "every state", "why_tests_cant": "all states", "anchors": ["pkg/ed/ed.go:Itor.ProcessCommands", "pkg/ed/ed.go:Itor.processCommand"]}
{"id": "C86", "title": "ed executes a typed session as a line editor would", "statement": "Typing any sequence of a, i, c, d, p, n and = commands with valid line numbers prints what a list-of-lines editor would print and leaves the buffer it would leave, for every schedule.", "quantifier": "every session and schedule", "why_tests_cant": "all sessions and schedules", "anchors": ["pkg/ed/ed.go", "pkg/ed/ed.peg.go", "pkg/ed/piece_table.go"]}
{"id": "C87", "title": "ed's marks and backward searches work as addresses", "statement": "An address 'x or ?re? is evaluated, or an error is reported, and the editor goes on.", "quantifier": "every mark, expression and buffer", "why_tests_cant": "all buffers", "anchors": ["pkg/ed/ed.go:Itor.addrLine", "pkg/ed/ed.peg"]}
{"id": "C88", "title": "ed FILE edits FILE", "statement": "Starting ed with a file name loads that file before the first command.", "quantifier": "every file name, contents and input", "why_tests_cant": "all names, including multibyte ones", "anchors": ["cmd/ed/main.go"]}
{"id": "C89", "title": "The locale parser accepts only locale definitions", "statement": "Whenever the parser generated from localedef.y returns successfully, the tokens it read, blanks apart, are derivable from locale_definition in the grammar of localedef.y, and the result is 0.", "quantifier": "every token sequence, every run length, every previous value of def", "why_tests_cant": "the generated tables have 290-odd states; a wrong entry shows only on particular token sequences", "anchors": ["pkg/locale/y.go:Parse", "pkg/locale/y.go:yylex1", "pkg/locale/localedef.y"]}
{"id": "C90", "title": "The locale parser accepts every locale definition", "statement": "Every token sequence derivable from the grammar whose NUMBER tokens are valid integers is accepted.", "quantifier": "every derivable token sequence, with blanks anywhere", "why_tests_cant": "infinitely many derivations; conflicts in an LALR table lose some of them silently", "anchors": ["pkg/locale/y.go:Parse", "pkg/locale/localedef.y"]}
{"id": "C91", "title": "The locale parser always ends and never indexes out of range", "statement": "On every token sequence the parser stops within 100 steps per token with acceptance, a syntax error or a bad number, and no table or stack access is out of range.", "quantifier": "every token sequence, channel closed or not", "why_tests_cant": "table indices depend on all of stack, state and lookahead", "anchors": ["pkg/locale/y.go:Parse"]}
{"id": "C92", "title": "A locale syntax error is reported as result 1", "statement": "On tokens that are not a locale definition Parse returns 1.", "quantifier": "every token sequence that is not derivable", "why_tests_cant": "error recovery paths are rarely exercised", "anchors": ["pkg/locale/y.go:Parse", "pkg/locale/localelex.go:Lexer"]}
{"id": "C93", "title": "int_curr_symbol is the last one given", "statement": "After a successful parse the stored symbol is the concatenation of the characters of the last int_curr_symbol line, or as before if there is none.", "quantifier": "every accepted token sequence", "why_tests_cant": "value stack handling is only wrong for particular interleavings of lines", "anchors": ["pkg/locale/y.go:assignMonetaryString", "pkg/locale/localedef.y"]}
{"id": "C94", "title": "mon_grouping is the last one given", "statement": "After a successful parse the stored grouping is the numbers of the last mon_grouping line in order, or as before if there is none.", "quantifier": "every accepted token sequence", "why_tests_cant": "lists of any length, any number of lines", "anchors": ["pkg/locale/y.go:assignMonetaryGrouping", "pkg/locale/localedef.y"]}
{"id": "C95", "title": "int_frac_digits is stored", "statement": "After a successful parse with a line int_frac_digits n the stored value is n.", "quantifier": "every accepted token sequence", "why_tests_cant": "tests compare only acceptance", "anchors": ["pkg/locale/y.go:assignMonetaryNumber", "pkg/locale/localedef.y"]}
{"id": "C96", "title": "A rejected locale definition changes nothing", "statement": "If parsing fails, the package's definition is as before.", "quantifier": "every rejected token sequence", "why_tests_cant": "needs failing inputs and inspection of a package variable", "anchors": ["pkg/locale/y.go:Parse", "pkg/locale/y.go:assignMonetaryString"]}
{"id": "C97", "title": "Blanks between locale tokens do not matter", "statement": "Inserting or removing WHITESPACE tokens anywhere changes neither outcome nor stored values.", "quantifier": "every token sequence and placement", "why_tests_cant": "all placements", "anchors": ["pkg/locale/localelex.go:Lex", "pkg/locale/y.go:Parse"]}
{"id": "C98", "title": "Every well-formed locale file is accepted", "statement": "A non-empty sequence of categories written with the supported keywords, comment lines, empty lines (not before the first category), continuation lines and escape_char directives is accepted.", "quantifier": "every well-formed definition, every layout, every previous state", "why_tests_cant": "infinitely many definitions and layouts", "anchors": ["pkg/locale/localelex.go:NewLexer", "pkg/locale/localelex.go:getsGenericCategory", "pkg/locale/y.go:Parse"]}
{"id": "C99", "title": "int_curr_symbol of a file is stored as its text", "statement": "After parsing a well-formed file the stored currency symbol is the text of the last int_curr_symbol line, with escapes resolved, or as before if there is none.", "quantifier": "every well-formed definition and layout", "why_tests_cant": "the stored value must be checked for every text and every position of the line", "anchors": ["pkg/locale/localelex.go:grabString", "pkg/locale/y.go:assignMonetaryString"]}
{"id": "C100", "title": "mon_grouping of a file is stored as its numbers", "statement": "After parsing a well-formed file the stored grouping is the list of numbers of the last mon_grouping line, or as before if there is none.", "quantifier": "every well-formed definition and layout", "why_tests_cant": "all number lists and positions", "anchors": ["pkg/locale/localelex.go:grabIntList", "pkg/locale/y.go:assignMonetaryGrouping"]}
{"id": "C101", "title": "Layout of a locale file does not matter", "statement": "Comment lines, empty lines and the amount of blanks between keyword and value change neither acceptance nor the stored values.", "quantifier": "every well-formed definition and every pair of layouts", "why_tests_cant": "relates two runs, over all layouts", "anchors": ["pkg/locale/localelex.go:removeComments", "pkg/locale/localelex.go:sCategory"]}
{"id": "C102", "title": "Only locale definitions are accepted", "statement": "If a text is accepted then, comments and continuations removed, it is a locale definition according to the grammar, all of it.", "quantifier": "every text", "why_tests_cant": "all texts, well-formed or not", "anchors": ["pkg/locale/localelex.go:sCategory", "pkg/locale/y.go:Parse"]}
{"id": "C103", "title": "Parsing a locale file ends", "statement": "NewLexer followed by yyParse ends on every text, accepting it or failing.", "quantifier": "every text", "why_tests_cant": "no test can observe that a run never ends", "anchors": ["pkg/locale/localelex.go:sCollateCategory", "pkg/locale/localelex.go:grabMsg"]}
{"id": "C104", "title": "Blanks at the end of a locale line do not matter", "statement": "A blank after the value of an entry is ignored.", "quantifier": "every category, entry and blank", "why_tests_cant": "all entries", "anchors": ["pkg/locale/localelex.go:getsGenericCategory"]}
{"id": "C105", "title": "Categories can be copied", "statement": "A category consisting of a copy line is accepted, as in the grammar.", "quantifier": "every category and locale name", "why_tests_cant": "all names", "anchors": ["pkg/locale/localelex.go:getsGenericCategory", "pkg/locale/localedef.y"]}
{"id": "C106", "title": "Character classes can be declared", "statement": "A charclass line in LC_CTYPE is accepted, as in the grammar.", "quantifier": "every list of class names", "why_tests_cant": "all lists", "anchors": ["pkg/locale/localelex.go:ctypeMap", "pkg/locale/localedef.y"]}
{"id": "C107", "title": "The lexer sends only terminals and loses no text", "statement": "Every token is a blank or a terminal of the grammar, and the tokens in order followed by the text not yet taken are the source.", "quantifier": "every text, also those on which the lexer fails or does not end, at every moment", "why_tests_cant": "all texts and all moments of a run", "anchors": ["pkg/locale/localelex.go:NewLexer", "pkg/locale/localelex.go:grabChar"]}
{"id": "C108", "title": "A session with w leaves the file with the text as of the last w", "statement": "`ed f` with a, i, c, d, p, n, = and w typed ends; the file then holds the lines as of the last w (or is unchanged if there is none), no temporary file is left by w, no other file has changed, and the replies are those of a list-of-lines editor.", "quantifier": "every file of ordinary lines (C50, C51) and name as in C88, every session of valid addresses with typable text (C63), ended by the end of input or by q and anything, every schedule, without failing system calls, data being written in any pieces", "why_tests_cant": "all files, sessions and schedules", "anchors": ["pkg/ed/ed.go:Write", "pkg/ed/ed.go:Edit", "pkg/ed/ed.go:ProcessCommands", "cmd/ed/main.go"]}
{"id": "C109", "title": "The edited file is never broken", "statement": "At every moment the file holds the text it had or the whole text of the editor at one of the w given; no file but it and its temporary file changes.", "quantifier": "the sessions of C108, every schedule, every moment (also between the system calls of a w, so also if killed there), every combination of failing system calls in every command", "why_tests_cant": "all failures at all moments", "anchors": ["pkg/ed/ed.go:Write", "pkg/ed/ed.go:Edit", "pkg/ed/ed.go:ProcessCommands"]}
{"id": "C110", "title": "The fuzz test of diff never panics", "statement": "Fuzz returns 1 when its separator occurs and does not occur again after its first occurrence, and -1 on all other data; neither of its panics can happen.", "quantifier": "every byte string", "why_tests_cant": "it is itself a test, for finitely many inputs", "anchors": ["pkg/diff/fuzz.go:Fuzz", "pkg/diff/fuzz.go:areIdentical", "pkg/diff/fuzz.go:assembleChanges"]}
{"id": "C111", "title": "Changes are irreducible and apart", "statement": "No change of the printed difference removes and adds the same line, and between two consecutive changes there is at least one unchanged line, as many in the old file as in the new one.", "quantifier": "every two lists of lines without newlines", "why_tests_cant": "all pairs of files", "anchors": ["pkg/diff/diff.go:Diff", "pkg/diff/output.go:basicOutput"]}
{"id": "C112", "title": "The list of changes is minimal", "statement": "No correct list of changes removes and adds fewer lines than the printed one (POSIX diff: the list should be minimal).", "quantifier": "every two lists of lines without newlines", "why_tests_cant": "all pairs of files and all lists of changes", "anchors": ["pkg/diff/diff.go:Diff"]}
{"id": "C113", "title": "Which order tsort returns", "statement": "Order returns first the items without predecessors and then, in the order of the result itself, the items each of them was the last to hold back, in the order in which Add recorded them; only the order of the first group is left to map iteration, and every order of it is possible.", "quantifier": "every sorter reachable by Add and Order calls and every map iteration order", "why_tests_cant": "map iteration order is random; all relations", "anchors": ["pkg/tsort/tsort.go:Sorter.Order", "pkg/tsort/tsort.go:Sorter.heads", "pkg/tsort/tsort.go:Sorter.Add"]}
{"id": "C114", "title": "What a pattern matches, exactly", "statement": "Matches is true exactly if from some position (the first one after ^) every element in turn takes at least its minimum of accepted characters, and no more characters than there are accepted ones among as many characters as its maximum; $ is ignored.", "quantifier": "every pattern that parses and every input", "why_tests_cant": "all patterns and inputs", "anchors": ["pkg/regexes/bre_evaluate.go:Bre.Matches", "pkg/regexes/bre_evaluate.go:elementsMatch"]}
{"id": "C115", "title": "Surrounding text keeps a match", "statement": "A text that contains a matched text is matched too; for ^ patterns, a text that begins with one.", "quantifier": "every pattern that parses, every input and surroundings", "why_tests_cant": "all inputs", "anchors": ["pkg/regexes/bre_evaluate.go:Bre.Matches"]}
{"id": "C116", "title": "cmp is symmetric", "statement": "With the operands swapped cmp gives the same status and diagnostics, and the same message with the names, or the list with the bytes, swapped.", "quantifier": "every pair of readable operands and all options", "why_tests_cant": "all pairs of files", "anchors": ["cmd/cmp/main.go:cmp", "cmd/cmp/main.go:parseSettings"]}
{"id": "C117", "title": "The lexer sends the words of a definition", "statement": "For a well-formed locale definition file the lexer ends, and what it has sent is the words of the definition in order, each as its own terminal (keyword, category name, value) with its own text.", "quantifier": "every well-formed definition and every layout, with newlines or carriage return and newline at the ends of lines", "why_tests_cant": "infinitely many definitions; some keywords are interchangeable for the parser, so a swapped table entry shows only in the tokens", "anchors": ["pkg/locale/localelex.go:NewLexer", "pkg/locale/localelex.go:monetaryMap", "pkg/locale/localelex.go:getsGenericCategory"]}
{"id": "C118", "title": "Carriage returns at line ends do not matter", "statement": "A definition file whose lines end in a carriage return and a newline, in any mixture with plain newlines, is accepted with the same stored values as the file with plain newlines.", "quantifier": "every well-formed definition, every pair of layouts, every mixture of line ends, every previous state", "why_tests_cant": "the mixtures are exponentially many and the definitions infinitely many", "anchors": ["pkg/locale/localelex.go:newLine", "pkg/locale/localelex.go:grabNewline", "pkg/locale/localelex.go:removeComments"]}
{"id": "C119", "title": "The linked list of pieces is a list", "statement": "With pieces as cells that are changed in place and linked by pointers, any in-range edits give the edited text, the pieces never form a cycle, and Insert panics exactly where an abstract list of pieces would.", "quantifier": "every content and every sequence of edits", "why_tests_cant": "aliasing between cells shows only in particular orders of edits, of which there are infinitely many", "anchors": ["pkg/txt/piece_table.go:Insert", "pkg/txt/piece_table.go:Delete", "pkg/txt/piece_table.go:String"]}
{"id": "C120", "title": "clean removes the empty pieces and keeps the text", "statement": "After clean no piece without text is left, the text is the same, and later edits act on it as before.", "quantifier": "every content, every sequence of edits before and after", "why_tests_cant": "all sequences of edits; which pieces are empty depends on them", "anchors": ["pkg/txt/piece_table.go:clean"]}
{"id": "C121", "title": "append links pieces in order", "statement": "piece.append puts its arguments, in their order, between the piece and its successor and leaves the rest of the list alone.", "quantifier": "every list, every piece in it, every number of distinct new pieces", "why_tests_cant": "lists of all lengths", "anchors": ["pkg/txt/piece_table.go:append"]}
{"id": "C122", "title": "ed's $ is the last line", "statement": "'$=' prints the number of lines in the buffer.", "quantifier": "every buffer, any blanks around the address", "why_tests_cant": "all buffers; only those with a blank last line go wrong", "anchors": ["pkg/ed/ed.go:Itor.addrLine", "pkg/ed/ed.go:Itor.getLines"]}
{"id": "C123", "title": "A number token is an integer", "statement": "The text of every number the lexer of locale definitions sends is a decimal integer: digits, with a minus sign before them or without.", "quantifier": "every text, every number token of it", "why_tests_cant": "all texts; only two-character numbers with a minus sign at the end go wrong", "anchors": ["pkg/locale/localelex.go:grabInt"]}
{"id": "C124", "title": "The patterns ParseBre understands", "statement": "ParseBre accepts exactly the texts of a grammar - elements (a character, a dot, a bracket expression with backslash escapes) with an optional repetition (star, {n}, {n,}, {n,m} with numbers that fit an int), parentheses being skipped, between optional anchors - and returns the anchors, elements and counts the grammar gives.", "quantifier": "every text of arbitrary bytes, every result", "why_tests_cant": "all texts; the unit tests compare the types of elements for eight patterns", "anchors": ["pkg/regexes/bre.go:ParseBre", "pkg/regexes/bre.go:parseCount", "pkg/regexes/bre.go:readUntil"]}
{"id": "C125", "title": "Malformed patterns are reported as errors", "statement": "ParseBre returns an error for a text that is not a pattern.", "quantifier": "every text outside the grammar of C124", "why_tests_cant": "the tests recover from panics, so they do not tell an error from a crash", "anchors": ["pkg/regexes/bre.go:ParseBre"]}
{"id": "C126", "title": "Printed elements are a pattern again", "statement": "The elements of a parsed pattern, printed by their String method one after the other behind a ^, parse to the same elements; without the ^ too unless the first element is a ^ itself.", "quantifier": "every pattern text", "why_tests_cant": "no test prints an element; counts up to the largest int and all characters are concerned", "anchors": ["pkg/regexes/bre.go:breDuplElement.String", "pkg/regexes/bre.go:breCount.String"]}
{"id": "C127", "title": "How many flipped bits cksum detects", "statement": "Two different strings of equal length have different checksums if they differ in at most 3 bits and have at most 11454 bytes, 4 bits and 375 bytes, 5 and 37, 6 and 25, 7 and 15, 8 and 11, 9 and 8, 10 and 6, or 14 and 5; none of these sizes can be raised.", "quantifier": "all pairs of strings of these sizes, all positions of the flipped bits", "why_tests_cant": "for 3 bits alone there are about 10^14 error patterns", "anchors": ["cmd/cksum/cksum.go:memcrc", "cmd/cksum/cksum.go:crctab"]}
{"id": "C128", "title": "head succeeds whenever the lines it prints can be read", "statement": "head exits 0 after printing the first n lines of each operand whenever every operand can be opened and its first n lines are shorter than the scanner's 65536-byte buffer and can be read without error; what follows these lines (an overlong line, a read error) does not matter.", "quantifier": "every count, operand list, file content and position of a read error", "why_tests_cant": "the failing inputs put an overlong line or a read error exactly after the last line printed; tests never inject read errors", "anchors": ["cmd/head/main.go:47-78"]}
{"id": "C129", "title": "What ed's editing commands do to any text", "statement": "On every text that is empty or ends in a newline, histories of a, i, c, d, p, n and = act on the bytes as if every line had its trailing carriage return removed and a last blank line did not exist: positions are counted in the lines so seen, one byte per line end, and the edit is applied at that position of the real text.", "quantifier": "all such texts without a line of 64K, all histories, all addresses", "why_tests_cant": "the difference from the intended behaviour depends on carriage returns and blank lines anywhere before the address, and accumulates over a history", "anchors": ["pkg/ed/ed.go:Itor.getLines", "pkg/ed/ed.go:Itor.getLineAddr", "pkg/ed/ed.go:Itor.insertBeforeLine", "pkg/ed/ed.go:Itor.Delete"]}
{"id": "C130", "title": "Escapes in the texts of locale definitions", "statement": "Between quotes the escapes of POSIX locale definitions are understood: octal escapes of two or three digits, and a backslash is an ordinary character when escape_char has named another one.", "quantifier": "all well-formed beginnings of a definition, all keywords with texts, all texts before the escape", "why_tests_cant": "the escape may stand in any text of any entry, after any number of categories, with any escape_char", "anchors": ["pkg/locale/localelex.go:grabEscapeInString", "pkg/locale/localelex.go:grabString"]}
{"id": "C131", "title": "Output that cannot be written", "statement": "When standard output does not take all that a utility writes (cat, head, cksum, cmp, tsort, diff), the utility says so and ends with a status other than 0, and what was written is a beginning of the right output.", "quantifier": "all outputs, failing at any write after any number of bytes, once or for good; all inputs and arguments", "why_tests_cant": "every write of every run can fail in its own way", "anchors": ["cmd/cat/main.go:writeFile", "cmd/head/main.go:process", "cmd/cksum/main.go:run", "cmd/cmp/main.go:cmp", "cmd/tsort/main.go:run", "cmd/diff/main.go:main"]}
{"id": "C132", "title": "ed: rejected commands", "statement": "A command that ed cannot read is answered with a question mark and a newline, and nothing more unless help is asked for; an accepted command is not answered so.", "quantifier": "all command texts", "why_tests_cant": "the texts that are not commands are unbounded in number and kind", "anchors": ["pkg/ed/ed.go:processInput", "pkg/ed/ed.peg.go:parseError.Error", "pkg/ed/ed.peg.go:translatePositions"]}
{"id": "C133", "title": "ed: where a command went wrong", "statement": "The report of a rejected command quotes the part of the command that was read before the mistake, and gives the line and the column, counted from 1, of its first character and of the character after it.", "quantifier": "all rejected command texts; all ways of quoting", "why_tests_cant": "the furthest token of a failed match depends on every alternative of the grammar that was tried", "anchors": ["pkg/ed/ed.peg.go:parseError.Error", "pkg/ed/ed.peg.go:translatePositions", "pkg/ed/ed.peg.go:Init"]}
{"id": "C134", "title": "ed: reading k, m, t, r and !", "statement": "The commands k with a letter, m and t with a destination, r with or without a file name and ! with a shell command, after any address or range they take and with blanks before and after it and before the argument, are read as those commands, with their addresses and arguments as typed.", "quantifier": "all ranges and addresses of every form; all letters, destinations, names and shell commands; any blanks", "why_tests_cant": "addresses, names and shell commands are unbounded, and every alternative before the right one in the grammar has to fail", "anchors": ["pkg/ed/ed.peg.go:Init", "pkg/ed/ed.peg.go:Execute", "pkg/ed/ed.peg"]}
{"id": "C135", "title": "ed: commands are carried out", "statement": "Every command of POSIX ed that is typed correctly is accepted and carried out, or answered with an error because it cannot be in the state the editor is in.", "quantifier": "all commands however written; all editors and files; all commands that follow", "why_tests_cant": "a test shows one command on one buffer; that a command never does anything is a statement about all of them", "anchors": ["pkg/ed/ed.go:processCommand", "pkg/ed/ed.go:ProcessCommands", "pkg/ed/ed.peg.go:Init"]}
{"id": "C136", "title": "pkg/locale: reading a definition does not depend on scheduling", "statement": "However the goroutine of the lexer and the parser take turns, and whatever room the channel between them has, reading a locale definition ends in the same way, with the same values; it ends under every schedule or under none, and the two never block each other.", "quantifier": "all texts; all capacities of at least one; all interleavings; all starting values of the definition", "why_tests_cant": "a test runs under the schedules the Go runtime happens to choose; races and deadlocks appear under others", "anchors": ["pkg/locale/localelex.go:NewLexer", "pkg/locale/localelex.go:Lex", "pkg/locale/y.go:Parse"]}
{"id": "C137", "title": "cut: options are read as POSIX says", "statement": "cut reads the options -b, -c, -f, -d, -n and -s and their arguments as the utility syntax guidelines of POSIX say, whether arguments are attached or separate and options grouped or not; the last of several arguments counts, -- ends the options, and what is no option or lacks its argument is rejected.", "quantifier": "all command lines", "why_tests_cant": "options, arguments and operands can be combined in unboundedly many ways; a test tries a few", "anchors": ["cmd/cut/main.go:main"]}
{"id": "C138", "title": "cksum: any four bytes in a row decide the checksum", "statement": "For every text before and after, and every 32-bit number, there is exactly one choice of four consecutive bytes that gives the whole text that number as its CRC; in particular every damage confined to four bytes in a row is noticed, every checksum can be forged by setting four bytes, and no checksum needs more than 32 bits.", "quantifier": "all byte sequences before and after and all 32-bit values", "why_tests_cant": "there are 2^32 values for each of infinitely many surroundings; a test tries a few", "anchors": ["cmd/cksum/cksum.go:memcrc"]}
{"id": "C139", "title": "A piece table grows with the edits, not with the text", "statement": "After any edits that did not panic the table has at most two more pieces per insertion and one more per deletion than the single piece it began with, its append buffer is the concatenation of the inserted texts, and the original text is unchanged; insertions alone reach the bound exactly.", "quantifier": "all original contents and all sequences of insertions and deletions that return, in range or not", "why_tests_cant": "edit sequences are unbounded; a leak or a lost piece may need a particular sequence", "anchors": ["pkg/txt/piece_table.go:Insert", "pkg/txt/piece_table.go:Delete"]}
{"id": "C140", "title": "A locale definition is refused at the first token that cannot be right", "statement": "The parser of locale definitions reports a syntax error exactly when the tokens it has been given are not the beginning of any locale definition of the grammar: as long as some definition goes on from what has been read the parser waits for more, and at the first token with which none does it stops, whatever follows.", "quantifier": "all sequences of tokens; all tokens behind them; all starting values of the definition; open and closed channels", "why_tests_cant": "all prefixes of all sentences of a recursive grammar, on 316 generated states; default reductions could delay an error or, with wrong tables, raise it early", "anchors": ["pkg/locale/localedef.y", "pkg/locale/y.go:Parse"]}
{"id": "C141", "title": "Matching takes polynomially many steps", "statement": "The number of steps that Matches takes is bounded by a polynomial in the lengths of the pattern and of the text. (False: a*a*...a*b with k stars takes 2^k steps on k letters a. What holds: for a pattern with e elements, v of which may occur a varying number of times, at most (e+1)(n+2)^(v+2) steps on n characters.)", "quantifier": "all patterns; all texts; for the refutation all constants and all degrees", "why_tests_cant": "a bound on running time for all inputs; tests use patterns of a few characters, which never show the explosion", "anchors": ["pkg/regexes/bre_evaluate.go:Matches", "pkg/regexes/bre_evaluate.go:elementsMatch"]}
{"id": "C142", "title": "Commands end by exiting, not by a panic", "statement": "Whatever the arguments, the files and the failures of the system, every run of cat, cksum, cmp, cut, diff, head, kill, test and tsort ends by exiting with a status that the command documents, never with a Go panic. (False for head, which reports every failure by a panic, and for kill with -s last or an empty argument.)", "quantifier": "all argument lists; all file contents, open and read errors; all iteration orders of maps", "why_tests_cant": "all argument lists and all failures of the system for nine commands; the panics need rare arguments or failing reads", "anchors": ["cmd/head/main.go", "cmd/kill/main.go", "cmd/cat/main.go", "cmd/cksum/main.go", "cmd/cmp/main.go", "cmd/cut/main.go", "cmd/diff/main.go", "cmd/test/main.go", "cmd/tsort/main.go"]}
{"id": "C143", "title": "PieceTable over any io.ReaderAt", "statement": "A PieceTable made over any reader that keeps the documented contract of io.ReaderAt yields, after any in-range edits, the edited content. (False: the contract lets a reader answer io.EOF together with the last byte of the content, and then String panics for every table whose text still has that byte; it never yields a wrong text, and never panics over readers that report an error only for a short read.)", "quantifier": "all readers keeping the contract, answering differently from call to call if they like; all contents; all in-range edit sequences", "why_tests_cant": "the tests use strings.Reader only, which never uses the freedom the contract leaves; all readers, contents and edit sequences are an infinite space", "anchors": ["pkg/txt/piece_table.go:55-100"]}
{"id": "C144", "title": "ed's parser: the tokens are those of the derivation", "statement": "For every command and whatever the token array holds from before (it is not empty), the generated parser ends without an index out of range; if the grammar derives the command, the tokens it leaves are exactly those of the grammar's one derivation, none left over from an abandoned alternative; otherwise it reports a syntax error.", "quantifier": "all commands (byte strings), all contents and lengths >= 1 of the token array", "why_tests_cant": "which abandoned tokens are overwritten depends on the order of attempts and on where the array is doubled; all inputs and all prior contents are an infinite space", "anchors": ["pkg/ed/ed.peg.go:295-306", "pkg/ed/ed.peg.go:541-2580"]}
{"id": "C145", "title": "ed's parser: the syntax tree", "statement": "For every command the parser accepts, AST returns a tree whose root is the whole command, whose nodes are exactly the tokens that cover some text, children before parents in token order, with children inside their parent and one after the other; printing it gives one line per node and never slices out of range.", "quantifier": "all accepted commands; all contents of the token array before the parse", "why_tests_cant": "the tree is rebuilt from positions alone, so a nesting error shows only for particular coincidences of positions; the commands are infinitely many", "anchors": ["pkg/ed/ed.peg.go:213-289"]}
{"id": "C146", "title": "Printing the result of Diff shows both texts", "statement": "If no line of the two texts contains a newline, the lines that comparison.String prints for the result of Diff give back both texts: those marked ' ' or '-' in order are the old one, those marked ' ' or '+' the new one. (With a newline in a line, two different results print alike.)", "quantifier": "all pairs of texts, as lists of lines without newlines", "why_tests_cant": "all pairs of texts, including lines that begin with the marks themselves", "anchors": ["pkg/diff/diff.go:14-32"]}
{"id": "C147", "title": "locale's output as shell input", "statement": "Run by a shell, the output of locale sets the eight variables so that the same locale is in effect for every category as in the environment of the command.", "quantifier": "all environments, as functions from names to values; all environments in which the output is run", "why_tests_cant": "the values are arbitrary strings, and quoting goes wrong only for particular characters in particular variables", "anchors": ["pkg/locale/locale.go:28-57", "cmd/locale/main.go:6-8"]}
{"id": "C148", "title": "diff: lines only added are not shown as changed", "statement": "If the new text is the old one with one block of lines put in somewhere, the printed difference removes nothing and adds as many lines as were put in; likewise for a block taken out.", "quantifier": "all texts, all blocks and all places", "why_tests_cant": "it fails only where lines repeat around the place; the texts, blocks and places are infinitely many", "anchors": ["pkg/diff/diff.go:34-91", "pkg/diff/output.go"]}
{"id": "C149", "title": "cmp and diff agree on which files are identical", "statement": "For two files that can be opened and read, diff prints no difference exactly when cmp exits with status 0.", "quantifier": "all pairs of readable files and all names for them", "why_tests_cant": "relates two programs on all pairs of contents; they part only at line endings and very long lines", "anchors": ["cmd/cmp/main.go:46-104", "cmd/diff/main.go:83-109"]}
{"id": "C150", "title": "Running tsort again gives the same output", "statement": "Two runs of tsort on the same input print the same text and end with the same status; an order written down as pairs, each item with the next one, is printed as it was written.", "quantifier": "all inputs, all operands, all pairs of orders in which Go may walk the map", "why_tests_cant": "Go walks a map in a different order every time; a test sees one of the orders and passes or fails by chance", "anchors": ["pkg/tsort/tsort.go:36-87", "cmd/tsort/main.go:14-68"]}
{"id": "C151", "title": "The message of a syntax error in a locale definition", "statement": "The message of a syntax error names the first token with which no locale definition can go on, or the end of the tokens; the tokens it says it expects are exactly the terminals that may stand there, in the order of their declaration, and it lists none only if there are more than four.", "quantifier": "all token lists, with the lexer's channel open or closed, all states of the definition, verbose messages or not", "why_tests_cant": "the list comes from the parser's tables after default reductions; whether it is complete depends on the state and on the stack, and there are hundreds of states", "anchors": ["pkg/locale/y.go:547-627", "pkg/locale/y.go:765", "pkg/locale/localedef.y:49-640"]}
{"id": "C152", "title": "Which lines a comparison keeps", "statement": "Diff keeps the longest block of lines that both files have, of several the one that ends first in the new file and then the one that begins first in the old file, and treats what is before it and what is after it in the same way; where there is no common line everything is removed and added.", "quantifier": "all pairs of lists of lines, all results", "why_tests_cant": "the choice among equally long blocks shows only in files with ties, at any depth of the recursion", "anchors": ["pkg/diff/diff.go:34-91", "pkg/diff/output.go:16-87"]}
{"id": "C153", "title": "The time of a comparison", "statement": "Comparing two files takes at most a constant multiple of the product of their numbers of lines.", "quantifier": "all pairs of lists of lines, all constants", "why_tests_cant": "a statement about growth; the slow files have a line repeated between different lines", "anchors": ["pkg/diff/diff.go:34-91"]}
{"id": "C154", "title": "Exchanging the two files", "statement": "If the two files are exchanged, the difference removes what it added and adds what it removed.", "quantifier": "all pairs of files", "why_tests_cant": "true of most files; ties between blocks are decided by the new file", "anchors": ["pkg/diff/diff.go:34-91", "cmd/diff/main.go:97-109"]}
{"id": "C155", "title": "Repetitions are abbreviations", "statement": "A repeated element matches what the longer way of writing it matches, in any pattern: x{m} is x written m times, x{m,} is x{m}x*, x{m,n} is x{m} and then up to n-m times an optional x, x* is x{0,}, and x*x* is x*.", "quantifier": "all elements, counts, patterns around them, and texts", "why_tests_cant": "whether two patterns match the same texts, wherever they stand, is a question about infinitely many texts", "anchors": ["pkg/regexes/bre.go:100-213", "pkg/regexes/bre_evaluate.go:4-61"]}
{"id": "C156", "title": "tsort: which pairs are given is all that matters", "statement": "What tsort prints depends only on which pairs the input has: not on the order of the pairs, nor on how often each is given.", "quantifier": "all lists of pairs and all orders of map iteration", "why_tests_cant": "pairs can be written in arbitrarily many orders, and repeated at arbitrary places", "anchors": ["pkg/tsort/tsort.go:18-87", "cmd/tsort/main.go:17-51"]}
{"id": "C157", "title": "flag: order, grouping and refusal", "statement": "Options can be given in any order and grouping as long as no variable is given two different values: the variables end up the same and so do the operands. If the command line is refused, no variable has been changed.", "quantifier": "all registrations, all well-formed option groups, all permutations of them, whatever follows them", "why_tests_cant": "options can be permuted and grouped in exponentially many ways", "anchors": ["pkg/flag/parse.go:Parser.Parse"]}
{"id": "C158", "title": "cksum: what a change does to the checksum", "statement": "Texts of equal length have the same checksum exactly when they have the same checksum in any surroundings. What replacing one text by another of the same length does to the checksum of a file depends only on these texts and on the number of bytes before and after them. The checksum of the exclusive or of three texts of equal length is the exclusive or of their checksums.", "quantifier": "all texts, all surroundings", "why_tests_cant": "collisions are rare and surroundings are unbounded", "anchors": ["cmd/cksum/cksum.go:61-79"]}
{"id": "C159", "title": "head of the output of head", "statement": "head -n m of what head -n k printed of a file is what head prints of the file with the smaller of k and m.", "quantifier": "all files of lines shorter than 64 KiB, all numbers k and m", "why_tests_cant": "files and numbers are unbounded", "anchors": ["cmd/head/main.go:47-78"]}
{"id": "C160", "title": "cmp -l tells the second file", "statement": "From the first file and what cmp -l prints, its diagnostics and its status the second file can be told.", "quantifier": "all pairs of files", "why_tests_cant": "a claim about all pairs of second files that give the same output", "anchors": ["cmd/cmp/main.go:46-104"]}
{"id": "C161", "title": "PieceTable: edits can be taken back, and only the text matters", "statement": "Every edit can be taken back by the opposite edit, edits that do not touch the same text can be made in either order, and what a table does next depends only on its text, not on the edits it came from.", "quantifier": "all tables, all pairs of tables with the same text, all lists of edits", "why_tests_cant": "relates all histories that lead to the same text; the pieces are different for each", "anchors": ["pkg/txt/piece_table.go:113-181"]}
{"id": "C162", "title": "ed: a, i, c and d refuse lines that do not exist", "statement": "a, i, c and d with a line number outside the buffer are reported as errors and change nothing.", "quantifier": "every buffer and every invalid line number", "why_tests_cant": "all buffers and addresses", "anchors": ["pkg/ed/ed.go:Itor.getLineAddr", "pkg/ed/ed.go:Itor.processCommand"]}
{"id": "C163", "title": "ed: commands for different lines can be given in either order", "statement": "Two editing commands for different lines give the same buffer in either order, the line numbers of the later lines being adjusted; and d takes away what a has added.", "quantifier": "every buffer and every pair of editing commands", "why_tests_cant": "relates two runs for all buffers and commands", "anchors": ["pkg/ed/ed.go:Itor.processCommand", "pkg/ed/ed.go:Itor.getLineAddr"]}
{"id": "C164", "title": "ed: w changes the file and nothing else", "statement": "After w the editor is as it was: the same text and file name, the same current line (POSIX: w leaves it unchanged), and every later command does what it would have done without the w. The file holds the text, no other file has changed, and a second w or an e of the file changes nothing more.", "quantifier": "For all editors, texts, files, histories of later commands, and w however addressed, when no system call fails.", "why_tests_cant": "Tests look at the file after w, not at the current line, nor at the commands that follow; the difference made to later deletions depends on where the text was edited before the w.", "anchors": ["pkg/ed/ed.go:Itor.Write", "pkg/ed/ed.go:Itor.Edit", "pkg/ed/ed.go:Itor.processCommand"]}
{"id": "C165", "title": "cmp: comparing three files", "statement": "Among readable files, 'cmp exits 0' is an equivalence relation and any other status is 1; identical files can be exchanged in any comparison; and if cmp f1 f2 reports byte m and cmp f2 f3 reports byte n, then cmp f1 f3 reports the earlier of them (with the same line) if one is earlier, and never a byte before both; equal bytes have equal lines.", "quantifier": "For all triples of readable files.", "why_tests_cant": "Relates three runs for all contents.", "anchors": ["cmd/cmp/main.go:cmp", "cmd/cmp/main.go:main"]}
{"id": "C166", "title": "test: the comparisons agree with each other", "statement": "Run against run: = is an equivalence on strings, != its negation, and equal strings can be exchanged in any comparison; of two integers exactly one of -lt, -eq, -gt holds, -ge, -ne, -le are their negations, and -le is a total order up to -eq.", "quantifier": "For all operands, and all integers in any decimal notation.", "why_tests_cant": "Laws over triples of arbitrary strings and integers.", "anchors": ["cmd/test/main.go:parse", "cmd/test/tests.go:numcmp", "cmd/test/tests.go:infixMap"]}
{"id": "C167", "title": "cmp and cksum agree on which files are identical", "statement": "cksum prints the same checksum and size for two files exactly when cmp finds them identical.", "quantifier": "For all pairs of readable files.", "why_tests_cant": "Relates two programs over all pairs of contents; collisions cannot be met by chance.", "anchors": ["cmd/cmp/main.go:cmp", "cmd/cksum/cksum.go:memcrc", "cmd/cksum/main.go:run"]}
{"id": "C168", "title": "head prints a beginning of the file, as cmp sees it", "statement": "If the output of head on a file is compared with the file by cmp, cmp finds them identical or reaches the end of the output first.", "quantifier": "For all files, counts and names.", "why_tests_cant": "Relates two programs over all contents and counts.", "anchors": ["cmd/head/main.go:process", "cmd/cmp/main.go:cmp"]}
{"id": "C169", "title": "cat on groups of operands", "statement": "Operands given to one run of cat can be divided among successive runs: without a failure in the first group the outputs are concatenated and the error report is that of the second; after a failure in the first group the second makes no difference. -u makes no difference anywhere.", "quantifier": "For all argument lists, files and standard inputs.", "why_tests_cant": "Relates runs on all divisions of all argument lists.", "anchors": ["cmd/cat/main.go:main"]}
