# Formal model of KDE/kdev-php — design

Property texts: `properties.jsonl`. Status per property: `MANIFEST.json`.
Mutation experiments: `seeded/LOG.jsonl`.

## Layout (`rocq/theories`)

* `*Model.v` — executable Gallina model; only definitions; every definition cites
  the file and lines of `/repo` it models and names each simplification.
* `*Spec.v` — small, independent specification vocabulary (no model helpers).
* `*Proofs.v` — lemmas.
* `Prop*.v` — only the property theorems (`exact lemma`), non-vacuity `Example`s, and
  `Print Assumptions`.

A property that the code violates is stated as `..._refuted : exists input, ...` (witness
checked by computation), together with the strongest positive theorem under an explicit,
readable guard.  Partial results carry the suffix `_partial`.

## Modelling conventions

* A `QString` is a `list N` of UTF-16 code units.  Reading index `size` yields the NUL
  terminator; any other read outside the buffer is the distinct outcome `UB`.
* `QChar::isSpace/isDigit/isLetter/toLower` and case folding are fields of a record
  `CharClass`; theorems that need them assume only their behaviour on ASCII.
* Positions that the C++ keeps in `int`/`qint64` are unbounded (documents shorter than
  2^31 units are assumed).
* Loops are structural recursion; the main token loop is an iteration indexed by the number
  of calls, so that divergence is expressible.

## Per property

| id | property | model / specification | how it is proved | status and what is missing |
|----|----|----|----|----|
| C01 | Tokenizing loses no source text | LexModel | step = slice; induction over the run | proved; lexer model; all documents |
| C02 | Token offsets stay inside the document | LexModel | bounds invariant over steps | proved; begin/end offsets of every token of a complete run |
| C03 | Tokenizing always terminates | LexModel | measure 2*(size-pos)+[mode]; divergence witness is a real loop | partial; the code loops forever on a string containing {$ followed by a digit after a variable; proved for all other documents |
| C04 | The lexer never reads outside the document buffer | LexModel | UB is a distinct outcome of every read; guard on yield | partial; the yield look-ahead reads past the end when yield is at the end of the document; proved for all other documents |
| C05 | The lexer mode stack never underflows | LexModel | stack-depth invariant | proved |
| C06 | Line table is exact | LexModel | recorded newlines = newlines of the slice, per token, then over runs | partial; newlines inside casts, yield from and unterminated strings are not recorded exactly; proved when no such token contains a newline |
| C07 | Single-quoted strings end at the first unescaped quote | LexModel, LexSpec | closed form of the string scan against a declarative first-unescaped-quote | proved |
| C08 | Double-quoted strings: constant vs interpolated | LexModel, LexSpec | same, with the interpolation start predicate | proved |
| C09 | Comments end where PHP says they end | LexModel, LexSpec | first-occurrence characterisation of comment ends | proved; An unterminated block comment ends the token stream. |
| C10 | Operators are lexed by longest match | LexModel, LexSpec | longest match over the table of operator spellings | proved; "(" is C16; "<<<", comments and ".digit" are excluded because they are not operators. |
| C11 | Keywords are recognised case-insensitively and only as whole words | LexModel, LexSpec | word = maximal run; table lookup modulo ASCII case | partial; yield with fewer than three characters behind it is an out-of-bounds read (C04_reads_refuted). |
| C12 | Nowdoc bodies are verbatim and end at the first terminator line | LexModel, LexSpec | first terminator line | proved |
| C13 | Nothing after __halt_compiler(); influences the tokens | LexModel, LexCut* | relational induction over the two runs | proved; Assumes the character database does not class blanks as letters or digits. Text behind the semicolon may still be read (undefined behaviour of C04 possible), so the document theorem speaks of runs that end. |
| C14 | Text outside PHP tags is never interpreted | LexModel | first `<?` characterisation | proved |
| C15 | Number literals are classified as integer or float correctly | LexModel, LexSpec | grammar of number literals; refuted for two families | partial; The code misclassifies hexadecimal literals whose digits start with 0b and binary literals of 20 or more digits. |
| C16 | Casts | LexModel, LexSpec | grammar of casts | proved; Under the hypothesis that no blank is a letter (true of Unicode). |
| C17 | Parser token stream: no blanks or comments, one end marker, right doc comments | TokModel | refinement of Parser::tokenize to filter + last doc comment | proved; tokenize() of the parser over the lexer model |
| C18 | Completion index behaves as a counted per-file map | CcmModel | refinement of the repository to a counted multiset map | proved; for every behaviour of the embedded item list meeting its contract; fewer than 2^32 calls (the code's count is 32 bit) |
| C19 | Inheritance stays acyclic and ancestor walks terminate | InhModel | acyclicity invariant over histories; well-founded walk | proved; Histories of atomic builder actions (each under the DUChain write lock). Platform DUContext::imports is modelled as reflexive-transitive reachability; reopening a class context clears its imports only while its base list is empty. |
| C20 | Namespaces opened are closed in reverse order | NsModel | bracket-sequence invariant over statement trees | proved; Files are lists of namespace statements and statement trees as the grammar allows (no nested namespace statements). |
| C21 | Variable types accumulate all assigned types | PhpTypes, MergeModel | set semantics of merges, induction over the history | proved; declareVariable's merge; the search for the existing declaration is not modelled |
| C22 | Function return type accumulates all returned types | PhpTypes, MergeModel | same, nested functions as trees | partial; the code keeps one flag for all nested functions, and keeps mixed when it comes later: refuted by witness; proved for uniformly hinted nestings without callable/function pairs |
| C23 | Parameter type from hint, default and doc comment | HintModel | case analysis against a declarative table | partial; a union hint naming an unknown class dereferences null; proved for all other parameters |
| C24 | Doc comment tag search finds exactly the lines starting with the tag | DocModel | scanner = line-based specification | partial; a tag followed only by blanks takes its value from the next line; proved for all other comments |
| C25 | Doc comment types | HintModel, DocModel | grammar of doc types | partial; T[][] is read as array of mixed; all other forms proved |
| C26 | Method modifiers decide visibility, static, abstract, final | ModModel | for all modifier words and all builder histories | partial; Exact for newly created declarations. Refuted: contradicting visibility keywords are not reported; an abstract method in a non-abstract class also gets 'must contain body'; flags of a declaration reused on reparse are never cleared. |
| C27 | Importing trait methods respects precedence | TraitModel | list specifications of the imported members | partial; Holds for traits up to the first unresolved one, members declared before the use statement and traits outside namespaces; six deviations are proved as refutations. |
| C28 | Name lookup is case-insensitive where PHP is | LookModel | lookup is invariant under ASCII case where PHP is | partial; Proved for every lookup path; fails for the redeclaration check, which looks up the spelled name (refuted theorem). |
| C29 | Declaration lookup only returns declarations of the requested kind | LookModel | soundness/completeness against kind predicates | partial; Kinds are exact for classes, functions and namespaces. The code violates the property for variables holding a constant, for global variables in namespaces, for self in closures and for parent in classes without a base class. |
| C30 | Include file resolution | InclModel | first match over an abstract file system | partial; Complete for literal include paths; a concatenated path is resolved by its last literal alone (refuted theorem). |
| C31 | Expression result types | ExprModel | structural induction over expression trees against PHP typing table | partial; Every operator the plugin has a rule for gets a PHP type; int/unset casts, *,/,%,**, shifts, logic, unary, isset, empty, print take the operand's type (refuted). |
| C32 | Code completion never looks outside the token list | ComplModel, CtxModel | index invariant over the constructor and parents; assertion = failure outcome | proved; Constructor, parent contexts, evaluateExpression; assertions count as failures. Type evaluation and class lookup are parameters. |
| C33 | No completion inside comments | ComplModel | text before the cursor ends in a comment | partial; Block, # and // comments proved. For comments started by three slashes the code offers completion (refuted). |
| C34 | Argument skipping finds the enclosing call's parenthesis | ComplModel | bracket matching specification | proved |
| C35 | Member completion respects visibility | ClsModel | visibility against reachability in the class graph | partial; Offered implies allowed, for all class graphs; exact outside classes, in the accessed class and in its subclasses; refuted inside a base class of the accessed class. |
| C36 | Override completion offers each overridable member once | ClsModel | no duplicates, exactly the overridable members | proved; allDeclarations of the platform must list the class' own declarations first (ownFirst). |
| C37 | Forbidden identifiers are exactly the class and all its ancestors | ClsModel | fixpoint of the closure = ancestors | partial; Exact when no two class declarations share an identifier; refuted otherwise. |
| C38 | Class completion filters by kind | ClsModel | filter against kind predicates | partial; Exact for declarations visible at the cursor; classes of other project files are added unfiltered (refuted). |
| C39 | Modifier scanning before the cursor | HelpModel | suffix-word grammar | partial; Exact as suffix words; the code does not check that a word starts at a word boundary (refuted). |
| C40 | Keyword completion puts the cursor at the marker | HelpModel | string arithmetic on templates | partial; Inserted text exact for every well-formed template; cursor and selection exact when no line end precedes the marker or the word starts in column 0; refuted otherwise and for the static template. |
| C41 | Argument list rendering pairs defaults with the right parameters | HelpModel | string arithmetic on argument lists | partial; Text exact, never reads past the defaults; last highlight segment too long (refuted). |
| C42 | Rename touches exactly the uses of the declaration | RenModel | tree induction over use contexts | proved; For every tree of contexts, every acceptance behaviour of the change set and every revision transform. C42_text_refuted records that the text is not looked at (self used for a three-letter class). |
| C43 | Unresolved identifiers reschedule a file at most once | JobModel | state machine, all histories | proved; Histories of requests and runs of one document with the background parser's merging queue. |
| C44 | PHPUnit contexts are processed once the TestCase declaration is known | UnitModel | counting over histories | partial; Exact number of examinations for every history; once each when the declarations file is read once. Refuted when it is read again: m_pendingContexts is never cleared, so pending contexts are examined again. |
| C45 | PHPUnit results | UnitModel | fold over output lines against a declarative reading | proved; For every character database, case list and sequence of output lines. |
| C46 | Documentation file names | DocsModel | case table | partial; Refuted for $_SERVER, which is missing from the list of reserved variables; proved for everything else. Lower-casing is per character and assumed idempotent. |
| C47 | Word under cursor | HoverModel | maximal word around the column | partial; Everything except that the range of a word at column 0 starts at -1, so a magic constant there is not recognised (refuted theorem). |
| C48 | Magic constants resolve to the enclosing scope | HoverModel | walk up contexts; divergence proved | partial; Values are right where the search ends; the search for __METHOD__ never ends in functions that are not methods (proved), and __NAMESPACE__ shows only the last component. |
| C49 | Namespace-qualified uses | UseModel | list indices | partial; Proved for names in code, use statements, names in expressions and group members of one component. Refuted for longer group members: the index into the member's components is not reduced by the prefix length, so uses are one node late (prefix of one) or the search in the circular list does not end (prefix of two or more). |
| C50 | Type equality and hashing agree | TyModel | structural induction on types | proved; Equality is exactly sameness of class, modifiers, referent and contents; hashes respect it for any platform hash functions of the compared data. |
| C51 | Variables and blanks are maximal runs | LexModel, LexSpec | maximal run | proved |
| C52 | Variable completion offers each visible variable once | ClsModel (Compl*) | order-sensitive dedup against visible declarations | partial; At most once, no foreign locals; a variable redeclared after the cursor is not offered (refuted). Nor is a parameter or local variable whose name is that of a property of the class (refuted). |
| C53 | Redeclarations are reported | LookModel | lookup specification | partial; Exact outside namespaces for lower-case names; wrong otherwise (refuted theorems). |
| C54 | Registered PHPUnit suites | UnitModel | inductive reachability of test classes | proved; Soundness and completeness against an inductive description; DUChainUtils::inheriters is a parameter, its bound of 100 steps is left out, recursion is by fuel (C54_complete: some fuel suffices). |
| C55 | Documentation index rows | DocsModel | fold over updates | partial; Refuted when the internal function file is updated again: rows are appended, never cleared. |
| C56 | Completion offers what may stand behind the text | CtxModel | token-suffix forms; constructor loop | partial; For all texts whose end matches one of the listed forms. Missing because the code does not do it: implements behind extends, namespace names behind a backslash. Not covered: include paths. |
| C57 | The expression completed or called is the one left of the cursor | CtxModel | backward scan against expression boundaries | partial; Proved for expressions without a comma that follow a statement boundary, comma or parenthesis. The refuted theorems give the cases where the code takes a wrong expression or none. |
| C58 | Parsing a file always ends | ParseModel | lexicographic measure (remaining tokens, non-consuming rule rank); fuel exists for every input | proved; for everything the parser generator leaves open (resynchronisation sets, blocking of errors) |
| C59 | Nodes and problems lie where they belong | ParseModel | span invariant over run | proved; node fields are not modelled, the tree has rule names, token indexes and start/end |
| C60 | A file parsed without errors is a word of the grammar | ParseModel, ParseSpec | soundness against the grammar as derivation relation | partial; full if the generated try/recover unblocks errors; otherwise for files without closures, and the refutation shows why: an error in a closure argument is hidden by the try/rollback around the call |
| C61 | Operators group as in PHP | ParseModel, PexSpec | printer/reader round trip: 22 precedence levels by induction on expressions | partial; Round trip for all expressions over variables, literals, interpolated strings, heredocs, constants, arrays, calls, static members, indices, properties, new, closures (with use lists, nested to any depth, also called where they are written), isset/empty/eval/exit/clone, ++/--, list(), yield, include, instanceof, unary/binary operators incl. **, assignments, ternaries, print, as long as every operand stands where the grammar reads its level (plain). Refuted outside: **, instanceof, include and list() group differently than PHP; calls of call results, assignments to members of a new object, static closures, members of closures and calls of by-reference closures are rejected. Missing: argument unpacking, by-reference arguments, anonymous classes. |
| C62 | Assigning to something that is no variable is reported | ParseModel, PexSpec2 | the flag is set only by a consumed variable token; failure propagates to the file | partial; Reported for every left side built from numbers, literals, arrays and operators; refuted in general: a variable anywhere on the left side silences the check, and =& accepts any expression. Missing: left sides with names or calls in them. |
| C63 | Reading a file takes effort proportional to its size | ParseModel, PexSpec2 | lower bound on yylex calls by induction on nesting | partial; The property is false: rollback makes the effort exponential in the nesting of indices. |
| C64 | A syntax error does not lose the rest of the file | ParseModel, ParseSpec | frame theorem: run is translation invariant; recovery of a function body | partial; proved for function bodies without braces, for every generator whose recovery stops at }; refuted at top level (start has no try/recover) and for errors inside nested braces |
| C65 | A file is read as the program it is | ParseModel (all rules); StSpec: programs, their text, which are well formed, how a tree is read | StTakes: a calculus 'item i reads text w in front of r'; StNames, StParts: names, types, values, lists; StProofs..5: each kind of statement, induction on the length of the text; StFile: files; FnProofs: closures, by induction on how deep they are nested. Round trip for all well-formed programs with the expressions of C61; unambiguity follows; refuted for operations as initial values | partial; All statements, functions, classes, traits, imports, namespaces, unbounded; the expressions inside are those of C61, closures with statements in them included. Violated: a static variable or property may not be initialised with an operation. |
| C66 | The variables of a scope are those the program gives values to | VarModel: the walk of DeclarationBuilder over the tree, with the variable found last, the function called, declarations and their types. Only the first build of a file; ranges are reduced to their start; other objects' classes, the move of declarations out of a namespace and the superglobal mark are left out; types of expressions are arbitrary functions; VarSpec: which variables a piece gives values to | induction on the tree with an invariant about names in scope (VarProofs..3) and about types that stay (VarProofs4); exact set of names and of types for the pieces of ok; 9 refutations outside | partial; For all programs of ok, whose exclusions are listed in VarSpec.v: scopes declare exactly the names given values, for any types of expressions; types assigned stay, also in the scopes of functions, which keep the types of their parameters. Outside: refuted. Not covered: building a file again, namespaces, properties of other objects. |
| C67 | A class declares the properties its methods assign | VarModel (as C66); PropertySpec: which properties of $this a piece gives values to | PropertyProofs..4: what every step of the walk leaves alone (all programs), then induction on the tree for the properties of the class around; exact set of names for the methods of okP, whose exclusions are listed, when no variable of that name is in sight; refuted for parameters, globals, locals, closures, calls and types | partial; For all classes whose methods are okP (exclusions in PropertySpec.v). The code finds any variable with the name of the property instead of the property: refuted with a parameter, a local and a global variable. Also refuted: closures, method calls as reference arguments, properties called this, types. Not covered: other objects than $this, building a file again. |
| C68 | Source text is read as the program it is | LexModel + TokModel + ParseModel, composed | SrcSpec.v states PHP's spelling rules as pieces of text between nested places; each piece is shown to lead the lexer from place to place (SrcProofs*), induction over the text gives the token list, C65 gives the tree; a printer (SrcPrint) shows that every plain token list has a spelling; five texts PHP reads otherwise are refuted | partial; Lexing is complete for the spelled texts; the tree is proved for the programs of C65. Missing: text behind __halt_compiler, what C65 misses. Refuted: ${expr}, {$$x}, heredoc in braces, keyword member behind a blank, yield FROM. |
| C69 | Broken rules of the language are reported where they are broken | SemModel: tree of functions, calls, classes, namespaces; builder state (contexts, declarations, previous parameter and argument); the visitors of the anchors | SemSpec: places and rules. The walk is shown to append what each piece calls for at its place (induction over trees), then each is compared with its rule. Refuted: union types, names like int\A, grouped use, later positional arguments, foreach targets visited twice, class self, the setting to switch problems off | partial; Eight of the rules hold in every file; the other four in files without unions, grouped use statements and names that begin with a builtin type, and for positional arguments up to the first of a call. The rest is refuted: the code reports valid union types, misses names like int\A, groups, later arguments and class self, reports twice in foreach targets. |
| C70 | Each declaration gets the type its own syntax gives it | RecModel: the walk of DeclarationBuilder/TypeBuilder over a file, with the type stack, lastType and the three flags as state; every declaration recorded with the type set (RecModel.v) | induction over the tree of nodes and members with the invariant: stack balanced, the flag set only after a documented lookup; the specification (RecSpec.v: types) is a function of the syntax alone | partial; Ordinary declarations proved for every file; constants, properties and caught exceptions under the condition that no doc comment read for something else comes directly before; the excluded cases are refuted. Types of expressions and parsed doc types are inputs of the model. |
| C71 | Choosing a member to override writes a method that overrides it | OvrModel: document, cursors, ImplementationItem::execute, with Range::start() as reference or copy; getMethodTokens and createArgumentList of C39/C41 | OvrProofs..3: the first modifier is where lastIndexOf finds it (finite check over modifier lists, then all texts), text computed; OvrProofs4,5: the text written spells the tokens of the method (C68), hence by C65 the document is read as the class with it. Refuted for function typed alone, properties behind function, and start() as a copy | partial; The text is exactly the documented one and the modifiers may override, for every document and member; the new document is read as the class with the method. Refuted: function typed alone, properties behind function, and the replaced range where Range::start() is a copy. Missing: references, variadics and return types, which the inserted text drops. |
| C72 | Variables are connected to their declarations; undeclared variables are marked | OccModel.v: the walk of UseBuilder and ExpressionVisitor over the tree of VarModel.v with the flag m_isAssignmentExpressionEqual, after the walk of DeclarationBuilder; contexts of functions in the order they were closed | induction over the tree that the positions of declarations are exactly the places that give a value (OccProofs, 2, 3), then soundness and completeness of the walk (4, 5, 6); PropOcc.v. Partial: closures, namespaces, class bodies left out; two refutations (index on the left of =; alias whose declaration in the other file is at the same position) | partial; Programs of expressions, assignments, lists, references, foreach, static, global, catch and nested function declarations. Left out: closures, class bodies, namespaces; indexes on the left of = (refuted) and aliases of declarations in other files (refuted). |
| C73 | Members behind -> and :: are connected to the member of the object's class | ChainModel.v: evaluation of chains of accesses over classes as trees of contexts: visitVariableProperty, static calls, static members, class constants, indexes; the search of a class context is the platform's | induction over classes that the search finds exactly the members PHP reaches (ChainProofs), then over expressions; PropChain.v. Partial: for expressions without the eight oddities refuted in ChainRefut.v; that a name is connected to members of that name only holds without exceptions | partial; Proved for the expressions and classes without the refuted oddities (plain); e->n[i](args), dynamic names in braces and encapsed strings are left out. |
| C74 | Completing the file name of an include | IncItemModel.v: IncludeFileItem::execute over the texts before and behind the cursor (the two regular expressions as matchers), and the offered items over folders as lists of names; Path::cd and the project model are the platform's | the matchers are shown to give the longest/leftmost match for the statement forms of the spec (IncItemProofs), path resolution against a relation Denotes by induction (IncItemProofs2); PropIncItem.v. Partial: statements that stand alone, paths with the slash; eight refutations | partial; Proved for statements opened as include/require, optional parenthesis, optional dirname(__FILE__) . and with what is left of an old name without blanks. Missing because the code violates it: include inside an expression, __DIR__ ., blanks and quotes in names, semicolon in the next line, .. without slash, names without slash behind dirname(__FILE__) . (all refuted). |
| C75 | Every class, function and constant named becomes a use, once | NamedModel.v: the walks of UseBuilder and ExpressionVisitor over a syntax tree of expressions and statements as mutual fixpoints; names are positions; UseModel.v says what a use is connected to | one induction principle over all nodes (NamedProofs); soundness, completeness up to an inductive list Missed, and counts (at most as often as written) by it; PropNamed.v. Partial: Missed names, and places used twice, are each shown by a refutation | partial; Every use is of a written name; every written name is used, but for the class in C::$f(), values of static variables, and in closures classes caught, extended, implemented, used as traits (Missed); once, but for trait alias blocks, indexes in the variables of foreach and unset, static members of unknown classes or behind new and instanceof (single). Each exception is shown to occur by a refutation. |
| C76 | Assigning to a private or protected property from elsewhere is reported | VisModel.v: the two lookups of visitAssignmentExpressionEqual over chains of classes, scopes and global variables; declarations as visited so far; the platform's findDeclarations and imports are stated there | both directions from PHP's rule (VisSpec: forbids), by case analysis and induction along chains (AccProofs); PropAcc.v. Partial: the object's class must be that of a global variable, no declaration of the same name may be in the way; each condition has a refutation without it | partial; Both directions proved for objects in global variables, when the property is no private one of a base class, the code is not in a base class of the declaring class (nothing allowed is reported), no variable or other member has the same name and the code is not in a class below the one with a private property (nothing forbidden is missed). Each condition is shown necessary by a refutation. |
| C77 | Variables in and behind closures are looked up in the function they stand in | CloModel.v: the contexts DeclarationBuilder leaves on nodes of the tree (with m_gotReturnTypeFromDocComment), ExpressionVisitor's current context through calls, assignments, closures, return statements and nested functions, UseBuilder's start of a visitor per expression; what is found in a scope is a parameter | induction over the tree: a part is met by the walk with some context, a piece with a mark of its own (or at the start of an expression outside of closures) with the right one; every occurrence met once. Refuted: echo in a closure (undeclared, or taken for a global variable of that name), a variable behind a closure in the same expression, a returned value in a closure with return type, `use` around a closure with a parameter of that name | partial; Files without closures: in full. With closures: arguments, assignments, returned values (no return types) and what is outside of closures, up to the first closure in the piece; refuted elsewhere. |
| C78 | Choosing an offered declaration writes text that means it | AccModel: what is visible, picked (outermost first, one Instance per name) and valid; declarationName and the parentheses; the const modifier of a property's type; the range of the line replaced | AccSpec gives the meaning of $this->x, self::$x, self::X, $x, x, x() from the language reference. Proved: in a method with $this (and for everything but members anywhere) the text names the chosen declaration or its override; a text names one thing; every usable method, and every property or constant whose name is unique, is offered, and only usable ones; the typed word is replaced exactly. Refuted (general form and witness): members of objects in static methods, all members in closures, static properties whose type carries the const modifier (value is a constant, or callable/object/resource), own property hidden by a private one of the base class. | partial; Proved for methods with $this and for everything that is no member; one text has one meaning; the line is replaced exactly. Refuted: static methods ($this-> is written), closures (no prefix is written), static properties whose type carries the const modifier (self::p without $), own property hidden behind a private one of the base class. Missing: trait members, namespaces, case of names. |
| C79 | The class named behind new by variables and properties is read to its end | NewModel: the loop of visitClassNameReference over the state (last declaration found, uses made), None for last() of an empty list; classes and lookup as in ChainModel; index expressions by their uses and what they leave | NewSpec.Path: which member each name refers to, by the language's rules. Proved by induction on the chain with the invariant Rel between the known class and m_result: exact uses for chains of names with an index at the end; no crash without ::${e}. Refuted: names behind an index (class of the property, or of the index variable), lost indices, braces and $$ not looked at, types that are one of several, crash on ::${undeclared}. | partial; Proved for chains of names of any length with indices at the end, properties of one class or none, no other member of the name; no crash without ::${e}. Missing: what the refutations show to be false (names behind indices, braces, $$, unsure types, ::${e}). |
| C80 | Call tips show the function each enclosing call runs | CallModel.v: the loop over the enclosing calls in completionItems, the search for a constructor through class contexts and the scopes around, the declarations shown | The result is compared with an inductive specification of which constructor PHP runs; the class search by induction on the class hierarchy, the loop by induction on the enclosing contexts. Classes named differently, old-style constructors, namespaces and functions with the name of the class are refuted; the lost outer call is computed in the token model of ComplModel.v | partial; Tips are proved right for classes as written today (constructors called __construct, no name shared with the class). Refuted: a class without constructor shows a function with its name, old-style constructors that are inherited or own, methods named as their class in namespaces, and outer calls around a call of an unknown function. How the platform searches contexts is an assumption stated in the model. |
| C81 | Behind -> the members of every class the value may have are offered | MemModel.v: memberAccessContainers, allDeclarations over imported contexts (each context once), the operator and name tests of the member items; the type of the variable is that of MergeModel.v | Exact set of members for every history of plain assignments, by induction over the class hierarchy with an invariant on the contexts already visited; members once for a single class. Overridden members, members inherited by two possible classes, references and unions inside unions are refuted | partial; The set of members is exact for histories of plain types; each is offered once for a value of one class. Refuted: overridden members are offered too, members two possible classes inherit are offered twice, a reference assigned a second class offers nothing, and a value of several possible classes assigned after one of a single class does not count. Visibility is C35. |
| C82 | Assigning to $this is reported, element assignments on ArrayAccess objects are not | ThisModel.v: the beginning of declareVariable for the name this: imported contexts searched for ArrayAccess, methods counted, the unchecked cast | Case analysis and counting: the number printed equals the number of missing methods, for every class that implements ArrayAccess itself; classes that inherit it or the methods, array values, object values and closures are refuted | partial; Exact for classes that implement ArrayAccess themselves and for those that do not at all. Refuted: arrays or objects assigned to $this in a class that implements ArrayAccess (not reported; an unchecked cast), classes that inherit the interface or the methods, and $this in closures and functions. |

## What is modelled

| file of /repo | modelled | model |
|----|----|----|
| parser/phplexer.{h,cpp} | all of it | LexModel |
| parser/tokenstream.h, Parser::tokenize in php.g, parsesession.cpp (token part) | filtering, doc comments, end marker | TokModel |
| parser/php.g | every rule of the grammar with its conditions, try/rollback, try/recover, the C++ code that changes parser state or reports problems; node fields (which child a rule stores where) are not modelled, the tree has rule names, tokens and start/end indexes | ParseModel |
| duchain/builders/typebuilder.cpp | findInDocComment, parseDocComment types, hints, parameter and return types, merging | DocModel, HintModel, MergeModel |
| duchain/builders/contextbuilder.cpp, predeclarationbuilder.cpp | namespaces, base types, identifier building | NsModel, InhModel, LookModel |
| duchain/builders/declarationbuilder.cpp | modifiers, method checks, trait import, redeclaration check, variable merge | ModModel, TraitModel, LookModel, MergeModel |
| duchain/builders/usebuilder.cpp | uses of namespaced names, use statements, group uses | UseModel |
| duchain/expressionvisitor.cpp | operator result types, name lookup for uses | ExprModel, LookModel |
| duchain/helper.cpp | findDeclarationImportHelper, include resolution, identifiers | LookModel, InclModel |
| duchain/completioncodemodel.cpp | the repository operations | CcmModel |
| duchain/types | equality, hash, clone of the plugin's types | TyModel |
| duchain/navigation/magicconstantnavigationcontext.cpp, phplanguagesupport.cpp (word under cursor) | values and range | HoverModel |
| completion/context.cpp | constructor, parents, expression evaluation boundaries, filters, member/override completion | ComplModel, CtxModel, ClsModel |
| completion/helpers.cpp, keyworditem.cpp | modifiers, templates, argument lists | HelpModel |
| codegen/refactoring.cpp | collecting the changes of a rename | RenModel |
| phpparsejob.cpp | rescheduling on unresolved identifiers | JobModel |
| testprovider | update notifications, suites, result parsing | UnitModel |
| docs | file names, index rows | DocsModel |

Not modelled: GUI code, plugin glue, serialisation of the DUChain, the debugger-less launch code, memory management, threads below the level
of the atomic steps named in JobModel/InhModel, the DUChain visitor dispatch itself (each modelled visitor function is entered directly with
the data it reads).

## Trusted base

* The Coq 8.16.1 kernel (`vm_compute` included).  Every property theorem prints `Closed under the global context`: no axioms at all, neither
  ours nor the standard library's.  (coqchk additionally lists the section-local `Coq.ssr.ssrunder.Under_rel.*` parameters of the ssreflect
  prelude that the `lia`-independent part of the library loads; no theorem depends on them.)
* The reading of the C++ sources: every model definition cites file and lines.
* External behaviour assumed, each written in the model comment where it is used:
  * Qt 5: `QString::mid`, `QCharRef`, `QChar` classes as a parameter (`CharClass`) with only ASCII facts assumed, NUL terminator readable.
  * KDevelop-PG-Qt (not in /repo): the shape of the generated recursive descent as described at the top of ParseModel.  What could not be
    decided from /repo is a parameter `Gen` (the token set at which try/recover stops, whether try/recover unblocks error reports) and the
    theorems hold for all its values.  AST memory is zero-initialised (castType default); `ListNode::at` searches by index.
  * KDevPlatform: `DUContext::imports` is reflexive-transitive reachability; `AbstractContextBuilder` clears imports when a context is
    reopened; `openDefinition` reuses a declaration with same identifier, range and type; `findDeclarations` is any function of the
    identifier; `wasEncountered` = met earlier in this pass; `QualifiedIdentifier ==` ignores explicitlyGlobal; `findContextAt` = deepest
    half-open range; TopDUContext feature bits; WorstPriority 40000.
* Integers are unbounded where the code uses `int`/`qint64` (documents below 2^31 units); the 32-bit reference count of the completion index is
  a stated hypothesis.

## Deviations of the code from the properties (all proved as `_refuted` theorems unless marked *)

* Lexer: endless loop on `"{$` + digit after a variable (C03); read past the end in the `yield from` look-ahead (C04); newlines in casts, `yield
  from` and unterminated strings (C06); hexadecimal literals starting `0x0b`, long binaries (C15).
* Parser: a syntax error at top level rejects the whole file, a syntax error is reported once per rule level (C64); errors in closures inside call arguments can be hidden
  (C60); `**`, `instanceof`, `include` group wrongly, `f(1)(2)` rejected (C61); assignment to a sum accepted, `=& 5` accepted (C62);
  exponential effort in nested indices (C63); the `{$..}` alternative of variableProperty is dead*.
* Types: merged flags for nested functions, late `mixed` (C22); null dereference on a union hint naming an unknown class (C23); blank tags (C24);
  `T[][]` (C25); int/unset casts and many operators take the operand's type (C31).
* Declarations: contradicting visibility, abstract methods in concrete classes, sticky flags (C26); six trait deviations (C27); redeclaration
  check uses the spelled name (C28, C53); constants as variables, `global` in namespaces, self in closures, parent without base (C29);
  concatenated includes (C30); group-use member index (C49).
* Completion: `///` comments (C33), members in base classes (C35), duplicate ids (C37), unfiltered index items (C38), word boundaries (C39),
  cursor in indented templates (C40), last highlight (C41), redeclared variables (C52), `implements` behind `extends` (C56), comma and echo (C57).
* Others: rename ignores the text (C42), pending contexts reprocessed (C44), `$_SERVER` (C46), column -1 (C47), endless search for `__METHOD__` (C48), rows appended again (C55).

## Testing the theorems

`seeded/LOG.jsonl` has one line per edited model: definition, edit, claim it breaks, theorems (or their lemmas) that failed, and what was
tightened when nothing failed.  An edit that changes nothing observable is kept in the log and named as such.
