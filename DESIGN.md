# Formal model of PySOM — design

Source: `/repo` (SOM-st/PySOM, pinned). Model and proofs: `/verif/rocq/theories`, Coq 8.16.1, logical
name `Verif`.

## Method

* The code is modelled as total, computable Gallina functions, one per Python function, branch by branch.
  Python exceptions (including `assert` failures, `AttributeError`s from sending an RPython method to the
  wrong class, `IndexError`, ...) are *values*: every fallible function answers `Ok x` or `Err e`
  (`Base.v`). Nothing is totalised by an invented default.
* Loops and recursion without a structural measure take a `nat` fuel; running out is the separate value
  `Err OutOfFuel`, and statements are of the form "for every fuel that suffices" or "there is a fuel".
* Execution mode: the primary target is the translated RPython VM (64-bit machine words, `ovfcheck` raises,
  `rbigint`). Where the behaviour under plain CPython differs and the difference is cheap to represent, the
  functions take a `mode` argument (`Translated | Hosted`). The `we_are_jitted()` branches (JIT hints that
  compute the same thing) and the JIT drivers are not modelled.
* Doubles are `Coq.Floats.SpecFloat.spec_float` with binary64 parameters (`prec = 53`, `emax = 1024`): pure
  Gallina, axiom free. (The primitive-float axioms of the standard library are not used.)
* Strings are Coq `string`s or lists of `ascii` (sequences of bytes, as RPython strings are).
* Code that runs other code (messages sent by bytecodes, nodes or primitives, blocks given to loops) is modelled
  over a *machine*: a record of operations (send a message, read a variable, make a block, ...) with an arbitrary
  state. Theorems about the compiler hold for every machine. The machine of the VM (`VmModel.v`) ties the knot:
  activations, blocks, invoking methods, returns out of blocks. Method lookup and primitives are parameters of it
  (the record `prog`); lookup itself is the subject of C22-C26.
* Runs may not end. A run takes a `nat` (nested invocations and rounds); `Hang` is running out of it. Two runs
  agree (`same_outcome`) if each outcome of one is the outcome of the other for all large enough numbers.
* Each area has four files: `XModel.v` (the code), `XSpec.v` (small specification, written without the
  model's helpers), `XProofs.v` (lemmas), `XProps.v` (only the property theorems, each
  followed by `Print Assumptions`, and the non-vacuity `Example`s beside them).
* If a property is false of the code, the theorem `Cxx_..._refuted` gives the counterexample, and the
  strongest true restriction is proved next to it.

## Plan per property

| property | files | what is modelled | how it is proved |
|---|---|---|---|
| C01–C05, C07–C09 | Num* | `integer.py`, `biginteger.py`, `double.py`, number primitives | case analysis on representations, `lia`/`nia`, Z.div/Z.rem theory; `WordProps.v`: every message keeps machine words within 64 bits, so `valid` holds throughout a run |
| C06 | Num* | shifts, masks, 32-bit conversions | `Z.testbit` extensionality |
| C10, C57 | Ntx* | `asString`, `fromString:`, integer literals of the parser | induction on decimal digits |
| C11, C51 | Loop* | loop primitives and AST loop nodes with their rewriting; the block is an arbitrary state transformer | induction on the distance to the limit |
| C12–C18 | Arr* | all strategies of `array.py`, array primitives | refinement to independent lists; invariant per strategy; induction over histories |
| C19–C21 | Fld* | layouts, storage locations, objects, class layout pointer | invariant over populations of objects sharing a class layout; induction over histories |
| C22–C26, C52 | Lkp* | classes with mutable method tables, AST and BC inline caches, super sends, perform:, doesNotUnderstand: | cache-coherence invariant, induction over histories |
| C27–C31 | Txt* | symbol table, symbol arity, globals and association cells, string primitives | invariants over histories; list lemmas |
| C32 | Heap* | `min_heap_queue.py` on lists | heap-shape invariant, permutation; refinement to a sorted bag |
| C33–C37, C54 | Lex* | `string_stream.py`, `lexer.py`, positions | induction on text; token grammar in the specification |
| C38, C56 | Parse* | both parsers: expressions, blocks, methods, classes | recursive descent follows the grammar; print/parse by induction on trees |
| C39, C46 | Bc*, BcLex | names, context levels and their adjustment when blocks are inlined | contexts of structured code; simulation |
| C40 | Frame* | frame layout and frame creation of both interpreters | permutation/disjointness lemmas on slots |
| C41, C42 | BcHeight, BcJump | stack height computation, jumps and their patching | one height per address, induction on emitted code |
| C43, C44 | Bc*, VmCode, VmBc | bytecode generator with peephole optimisations and inlining, interpreter loop; whole programs | emitted bytes encode structured code; structured code computes what the evaluator of sources computes; simulation over all machines, then for the VM's machine |
| C45 | Ctl* | primitives of True, False and Block; control structures as messages with an activation per block | simulation between runs with and without activations for the blocks |
| C47 | Vm*, BcCatch, AstVm*, AstCatch | activations, on-stack marks, ReturnException, catching methods | invariant of every state of a run; equality with a stack-based specification |
| C48 | VmTriv*, BcTriv | recognising and invoking trivial methods | shape of the bytes; both runs computed |
| C49 | Ast* | AST compiler, adaptation of nodes when inlined, execution of nodes; whole programs run as nodes (AstVm*) | nodes execute as an evaluator of sources with the differences left open; equality where none matters; a refutation per difference; for whole programs both interpreters simulate, and are simulated by, a run that is stuck where they differ (AstVmCare, AstVmBoth) |
| C50, C53 | Arg* | command line, class path search, shell line reader | list induction |
| C55 | Dbl* | double comparisons, asInteger, round, sqrt | exact values as integers in units of 2^-1074; rounding is faithful (DblRound), so round and sqrt are exact below 2^52; roots of squares by nearest rounding, tracking the bits shifted out (DblSqrt); comparisons of an integer up to 2^53 with a double through its asDouble, which is exact (Cmp*) |
| C58–C60 | Cls* | start-up of the object system, loading and assembling classes, primitives installed, shell classes | Hoare-style invariants of the class table; invariant that named classes are as declared; growth; fuel = length of the chain of superclasses |
| C61, C62 | Refl* | reflective field primitives on the objects of Fld* | the invariant of Fld* kept by the primitives; Python's index wrap-around made explicit |
| C63 | Cond* | the node at a send as a state machine: uninitialized, specialized, ordinary send | the node after any history is determined by the first receiver |
| C64 | Shell* | the loop of the shell over an abstract compiler and interpreter; the class text it makes of a line | induction on the lines; the grammar of tokens (Lex*) and of classes (Parse*) applied to the class text |
| C65 | Prm* | the four classes of primitives and the callers in both interpreters, over any function; the table of provided primitives | case analysis on the number of arguments; the table checked row by row |
| C66 | Arity* on Frame* | calls whose number of arguments is chosen at run time, over the frames of C40 | closed form of the frames made for any number of arguments, compared with the frames of right calls |
| C67 | `ErrModel.v`: Python's % formatting as a state machine over the format (conversions other than plain %s and %d are a parameter), the symbol names, `ParseError`/`ParseErrorSymList`, every place that raises one, the raw buffer of the lexer model of C33/C54. Proved from the invariants of the lexer: the raw buffer is the line named, and formatting a text without % is the identity. False for source lines with a percent sign. |
| C68 | `RwModel.v`: the nodes as a heap of objects with slots, list objects and parents; `adopt`, `replace` and `replace_child_with`; execution on the heap, where calls run on the same nodes; the heap the compiler makes for a program. The rest of the VM is any machine that may call methods and go on with what they answer. Proved by simulation against AstModel's `exec`: every node, reachable or stale, represents one node of the source program, and every child but that of an uninitialized write has a parent; both are kept by allocation and replacement. |
| C69 | `DisModel.v`: dump, dump_method and dump_bytecode, branch by branch, with what they have written and the exception they ended with; literals and classes are shown by an unknown function. `DisSpec.v` says what a listing is: decoding of bytes to instructions, lines, nested listings. The listing is proved to be what is written, by induction on nested methods and on the decoding; a listing is read back to its code by cutting the text from the left. That compiled code decodes and that its jumps go to instructions is proved by induction on the relation between source and bytes of C43 (`enc`). Refuted: trivial methods have no listing (AttributeError), blocks without context are not listed. |
| C70 | `IoModel.v`: strict UTF-8 encoding and decoding, the output primitives on two descriptors with a system that takes any number of the bytes, Python's buffered print of halt, readall_from_stream over any sequence of reads, loadFile:, raw_input on bytes, the decoding of sys.argv. `IoSpec.v` gives UTF-8 as a relation on the bits of characters (RFC 3629), the text each action shows, and line ends. Encoding and decoding are proved to be that relation in both directions; outputs by induction on histories; reading by induction with the sizes of buffers. Refuted: short writes, the breakpoint message in a redirected output, arguments that are not UTF-8, half-read files, undecodable files, carriage returns, characters cut at the 32nd byte. |
| C71 | `IdModel.v`: references to objects (where an object is and what it is), the array strategies of `array.py` storing references or bare numbers, fields that may store bare numbers, the symbol table, programs as histories of steps; ==, = and hashcode by class. `IdSpec.v` has a memory that keeps the very objects stored in it. Proved by a simulation between the two memories, with the invariant of arrays being filled, and the invariant that a place determines the object. Refuted for numbers: hashcodes of equal integers, hashcodes and identity of numbers that went through arrays and fields. |
| C72 | `ExitModel.v`: programs as trees of outputs, calls, activations that catch returns, non-local returns, loads, failures and exits; exceptions as values, the handlers of both interpreters, load_class, the shell, main, main.py and entry_point as functions to a final state and a status. `ExitSpec.v` has an execution on an explicit stack of activations on which exit ends everything, and sessions of the shell. Proved by a simulation with the invariant that the contexts marked as on the stack are those on the stack. |
| C73 | The parsers of `ParseModel.v` (no new model). `AcceptSpec.v`: the grammar as a language of token lists, without trees, with three places in which a parser may read more or less; `source`, `ast_source` and `bc_source` are instances. Every parsing function is shown to answer a beginning of its input in the language or a syntax error within a bound of the number of tokens (soundness and termination, by induction on the bound), and to answer on every member whatever follows it (completeness, by mutual induction on the derivation). |
| C74 | `NumModel.v` and `NtxModel.v` in both modes (no new model). `ModeSpec.v`: a small language of number programs with the list of messages each run sends, the relation of values (same mathematical value, whatever the representation) and, per message, the condition under which the two modes must agree. Each message is shown to agree by cases on the representations, with exact conversions of words to doubles; programs by induction on the run. One counterexample for each condition. |
| C75 | `NumModel.v` (no change) and `FltModel.v` (square root of a double, PositiveInfinity). `FltSpec.v` says what the nearest double is, with integers only: every other double is at least as far from the exact fraction p/q. Proof: the rounding of the standard library's SpecFloat is followed against an abstract cut (a function that compares an integer multiple of 2^-2200 with the exact result), so one invariant of the shifts serves sums, products, quotients and roots; uniqueness from the parity of neighbouring significands. `WfSpec.v` lists what a program can compute (literals, fromString:, PositiveInfinity, all sends), and `WfProps.v` proves by induction that all doubles among it have the binary64 format, which C55 and C75 assume. |
| C76 | `DecModel.v` (literals with a decimal point, Double fromString:), `DecSpec.v` (what number a text writes). float() itself is not in the repository and is modelled as the correctly rounded quotient of the digits and a power of ten, which Python documents; exponents, spaces, underscores, inf and nan in fromString: are not modelled. Proof: by C75 for the quotient; texts with different numbers of digits are brought to a common denominator. The negative zero cannot be written as a literal (C76_negative_zero_refuted) |

Nothing in the list of properties was found inexpressible. Where a property is false of the code, or was proved
only in part, `MANIFEST.json` says so in the note of the property.

## Trusted base

* Coq 8.16.1's kernel (and `vm_compute` where used for witnesses).
* `Print Assumptions` follows every property theorem in the `*Props.v` files and prints "Closed under the global
  context" for each of them: no axiom of the standard library or of any other library is used, and there are none
  of our own. (A listing of all constants of the loaded libraries also shows seven entries
  `Coq.ssr.ssrunder.Under_rel.*`: the parameters of a module type in Coq's own ssreflect, which comes
  with the libraries we import. No theorem depends on them.)
* The faithfulness of the hand-written model to the Python text (each definition cites file and lines).
* Facts about Python/RPython semantics the model relies on: list indexing with negative indices, floor
  division, `ovfcheck`, two's complement words, `int == float` comparing after conversion to double in
  RPython, `divrem` of `rbigint` truncating.

## What is modelled

| code | where |
|---|---|
| `vmobjects/integer.py`, `biginteger.py`, `double.py`; `primitives/integer_primitives.py`, `double_primitives.py`; `rlib/arithmetic.py`, `llop.py`, `float.py` | NumModel, NtxModel, FltModel, DecModel |
| `vmobjects/array.py`, `primitives/array_primitives.py` | ArrModel |
| `primitives/bc/integer_primitives.py`, `interpreter/ast/nodes/specialized/to_do_node.py`, `to_by_do_node.py`, `down_to_do_node.py` | LoopModel |
| `interpreter/objectstorage/*.py`, `vmobjects/object_with_layout.py`, the layout part of `clazz.py` | FldModel |
| `vmobjects/clazz.py` (method tables), `interpreter/ast/nodes/dispatch.py`, `message/*.py`, inline caches and super sends of `bc/interpreter.py`, `interpreter/send.py`, perform: of `object_primitives.py` | LkpModel |
| `vm/symbols.py`, `vmobjects/symbol.py`, globals of `vm/universe.py`, `primitives/string_primitives.py`, `symbol_primitives.py` | TxtModel |
| `rlib/min_heap_queue.py` | HeapModel |
| `handle_arguments`, `path_split`, class search of `vm/universe.py`; `rlib/osext.py` | ArgModel |
| `vm/shell.py` | ShellModel |
| `compiler/lexer.py`, `rlib/string_stream.py`, `compiler/symbol.py` | LexModel |
| `compiler/parser.py`, `compiler/ast/parser.py`, `compiler/bc/parser.py` as readers, `class_generation_context.py` | ParseModel |
| `interpreter/ast/frame.py`, `interpreter/bc/frame.py`, `prepare_frame` of both method generation contexts, `compiler/ast/variable.py` | FrameModel |
| `compiler/bc/*.py`, `compiler/method_generation_context.py`, `lexical_scope.py`, `vmobjects/method_bc.py`, `interpreter/bc/bytecodes.py`, `interpreter/bc/interpreter.py` | BcModel, BcInterp |
| `vmobjects/block_bc.py`, invocation in `method_bc.py`, `control_flow.py`, `get_self_dynamically`, `primitives/block_primitives.py` | VmModel |
| `vmobjects/method_trivial.py` | VmTriv, AstModel |
| `compiler/bc/disassembler.py`, `compiler/ast/disassembler.py` | DisModel |
| `rlib/string_stream.py` (codecs), `rlib/streamio.py`, output functions of `vm/universe.py`, `printString:` etc. and `loadFile:` of `system_primitives.py`, `halt` | IoModel |
| `==`, `hashcode` of `object_primitives.py` and `string_primitives.py`; identity of what `vmobjects/array.py` and `storage_location.py` store and answer | IdModel |
| `main.py`, `main_rpython.py` entry_point, `rlib/exit.py`, `interp_type.py`; exit, interpret, main, _load_system_class of `universe.py`; handlers of exceptions in `shell.py`, `method_bc.py`, `return_non_local_node.py` | ExitModel |
| `compiler/ast/*.py`, `rtruffle/abstract_node.py`, `interpreter/ast/nodes/*.py`, `specialized/literal_*.py`, `int_inc_node.py`, `vmobjects/method_ast.py` | AstModel |
| `vmobjects/block_ast.py`, `interpreter/ast/nodes/return_non_local_node.py`, contexted nodes and invocation of `method_ast.py`, as parts of a running program | AstVm |
| `instVarAt:`, `instVarAt:put:`, `instVarNamed:`, `objectSize` of `primitives/object_primitives.py`; `lookup_field_index` of `clazz.py`; `get_number_of_fields` | ReflModel |
| `primitives/true_primitives.py`, `false_primitives.py` | CtlModel |
| `interpreter/ast/nodes/specialized/if_true_false.py`, `_specialize` of `message/uninitialized_node.py` | CondModel |
| `_initialize_object_system`, `load_class`, `_load_class`, `_load_system_class`, `_make_block_class`, `load_shell_class` of `vm/universe.py`; `compiler/sourcecode_compiler.py`; `assemble`, `assemble_system_class`; `primitives/known.py`, installation in `primitives.py` and `clazz.py` | ClsModel |

Not modelled: the JIT annotations and drivers, tracing, garbage collection hints, printing of stack traces, file access other than loadFile: and the search for class
files, the core library (which is not in the repository; where a property needs methods of it, as ifNil:, their
meaning is stated in the specification), clocks and memory statistics.

## Testing the theorems

`seeded/LOG.jsonl` lists edits to the model as realistic bugs would make them, each tried in a scratch copy with the
whole development rebuilt: the definition, the edit, the property it breaks, and the theorems whose proofs failed
(or that turned out to rest on a lemma that failed). Where a theorem survived an edit that makes its English claim
false, it was strengthened, and the entry says which.
