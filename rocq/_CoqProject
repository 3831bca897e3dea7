-Q theories Verif
theories/Base.v
theories/Versions/Model.v
theories/Versions/Spec.v
theories/Versions/Proofs.v
theories/Versions/Props.v
theories/Documents/Model.v
theories/Documents/Spec.v
theories/Documents/Positions.v
theories/Documents/Proofs.v
theories/Documents/Props.v
theories/Overwrite/Model.v
theories/Overwrite/Spec.v
theories/Overwrite/Proofs.v
theories/Overwrite/Props.v
theories/Symbols/Model.v
theories/Symbols/Spec.v
theories/Symbols/Proofs.v
theories/Symbols/Props.v
theories/Strs.v
theories/Paths.v
theories/Rpc/Model.v
theories/Rpc/Spec.v
theories/Rpc/Proofs.v
theories/Rpc/Props.v
theories/Generate/Model.v
theories/Generate/Spec.v
theories/Generate/Proofs.v
theories/Generate/Props.v
theories/Compile/Model.v
theories/Compile/Spec.v
theories/Compile/Proofs.v
theories/Compile/Props.v
theories/PrefixSearch/Model.v
theories/PrefixSearch/Spec.v
theories/PrefixSearch/Proofs.v
theories/PrefixSearch/Props.v
theories/Diagnostics/Model.v
theories/Diagnostics/Spec.v
theories/Diagnostics/Proofs.v
theories/Diagnostics/Props.v
theories/Tokens/Model.v
theories/Tokens/Spec.v
theories/Tokens/Proofs.v
theories/Tokens/Props.v
theories/Locks/Model.v
theories/Locks/Spec.v
theories/Locks/Proofs.v
theories/Locks/Props.v
theories/Publish/Model.v
theories/Publish/Spec.v
theories/Publish/Proofs.v
theories/Publish/Props.v
theories/CodeActions/Model.v
theories/CodeActions/Spec.v
theories/CodeActions/Proofs.v
theories/CodeActions/Props.v
theories/Refactor/Model.v
theories/Refactor/Spec.v
theories/Refactor/Proofs.v
theories/Refactor/Props.v
theories/Simplify/Model.v
theories/Simplify/Spec.v
theories/Simplify/Proofs.v
theories/Simplify/Props.v
theories/Completion/Model.v
theories/Completion/Spec.v
theories/Completion/Proofs.v
theories/Completion/Props.v
theories/Format/Model.v
theories/Format/Spec.v
theories/Format/Proofs.v
theories/Format/Props.v
theories/Resolver/Model.v
theories/Resolver/Spec.v
theories/Resolver/Proofs.v
theories/Resolver/Props.v
theories/Workspaces/Model.v
theories/Workspaces/Spec.v
theories/Workspaces/Proofs.v
theories/Workspaces/Props.v
theories/Generated/Model.v
theories/Generated/Spec.v
theories/Generated/Proofs.v
theories/Generated/Props.v
theories/Print/Model.v
theories/Print/Spec.v
theories/Print/Literals.v
theories/Print/Comments.v
theories/Print/Proofs.v
theories/Print/Props.v
theories/Sdk/Model.v
theories/Sdk/Spec.v
theories/Sdk/Proofs.v
theories/Sdk/Props.v
theories/Codegen/Model.v
theories/Codegen/Spec.v
theories/Codegen/Proofs.v
theories/Codegen/Props.v
theories/Search/Model.v
theories/Search/Spec.v
theories/Search/Proofs.v
theories/Search/Props.v
theories/Rename/Model.v
theories/Rename/Spec.v
theories/Rename/Proofs.v
theories/Rename/Props.v
theories/Packages/Model.v
theories/Packages/Spec.v
theories/Packages/Proofs.v
theories/Packages/Props.v
theories/Outline/Model.v
theories/Outline/Spec.v
theories/Outline/Proofs.v
theories/Outline/Props.v
theories/Decode/Model.v
theories/Decode/Spec.v
theories/Decode/Proofs.v
theories/Decode/Props.v
theories/Links/Model.v
theories/Links/Spec.v
theories/Links/Proofs.v
theories/Links/Props.v
theories/FormatTree/Model.v
theories/FormatTree/Spec.v
theories/FormatTree/Proofs.v
theories/FormatTree/Props.v
theories/FormatTree/Lexing.v
theories/FormatTree/Words.v
theories/FormatTree/Samples.v
theories/FormatTree/Wf.v
theories/FormatTree/Cases.v
theories/FormatTree/CommentSpec.v
theories/FormatTree/Comments.v
theories/FormatTree/BalanceSpec.v
theories/FormatTree/Balance.v
theories/PrintTree/Model.v
theories/PrintTree/Grammar.v
theories/PrintTree/Spec.v
theories/PrintTree/Read.v
theories/PrintTree/Ast.v
theories/PrintTree/Body.v
theories/PrintTree/Facts.v
theories/PrintTree/FileFacts.v
theories/PrintTree/Spaced.v
theories/PrintTree/Cases.v
theories/PrintTree/Order.v
theories/PrintTree/Names.v
theories/PrintTree/Props.v
theories/Grpc/Model.v
theories/Grpc/Spec.v
theories/Grpc/Proofs.v
theories/Grpc/Names.v
theories/Grpc/Distinct.v
theories/Grpc/Typed.v
theories/Grpc/Props.v
theories/Locate/Model.v
theories/Locate/Spec.v
theories/Locate/Proofs.v
theories/Locate/Props.v
theories/Offers/Model.v
theories/Offers/Spec.v
theories/Offers/Proofs.v
theories/Offers/Props.v
theories/Fixes/Model.v
theories/Fixes/Spec.v
theories/Fixes/Proofs.v
theories/Fixes/Props.v
theories/Events/Model.v
theories/Events/Spec.v
theories/Events/Proofs.v
theories/Events/Props.v
theories/Hover/Model.v
theories/Hover/Spec.v
theories/Hover/Proofs.v
theories/Hover/Props.v
theories/Highlight/Perm.v
theories/Highlight/Samples.v
theories/Highlight/Model.v
theories/Highlight/Spec.v
theories/Highlight/Proofs.v
theories/Highlight/Library.v
theories/Highlight/Props.v
theories/Rewrite/Model.v
theories/Rewrite/Spec.v
theories/Rewrite/Samples.v
theories/Rewrite/Proofs.v
theories/Rewrite/Props.v
theories/Cel/Model.v
theories/Cel/Spec.v
theories/Cel/Proofs.v
theories/Cel/Props.v
theories/Typing/Model.v
theories/Typing/Spec.v
theories/Typing/Proofs.v
theories/Typing/Props.v
theories/Parts/Model.v
theories/Parts/Spec.v
theories/Parts/Proofs.v
theories/Parts/Props.v
theories/Retype/Model.v
theories/Retype/Spec.v
theories/Retype/Proofs.v
theories/Retype/Props.v
theories/Stable/Spec.v
theories/Stable/Sim.v
theories/Stable/Atoms.v
theories/Stable/Cols.v
theories/Stable/Tree.v
theories/Stable/Samples.v
theories/Stable/Proofs.v
theories/Stable/Props.v
theories/Types/Model.v
theories/Types/Spec.v
theories/Types/Proofs.v
theories/Types/Props.v
theories/Apply/Model.v
theories/Apply/Spec.v
theories/Apply/Proofs.v
theories/Apply/Props.v
theories/Commands/Model.v
theories/Commands/Spec.v
theories/Commands/Proofs.v
theories/Commands/Props.v
theories/Window/Model.v
theories/Window/Spec.v
theories/Window/Proofs.v
theories/Window/Props.v
theories/Sync/Model.v
theories/Sync/Spec.v
theories/Sync/Proofs.v
theories/Sync/Props.v
theories/Definition/Model.v
theories/Definition/Spec.v
theories/Definition/Proofs.v
theories/Definition/Props.v
theories/Ranges/Model.v
theories/Ranges/Spec.v
theories/Ranges/Proofs.v
theories/Ranges/Props.v
theories/Vet/Model.v
theories/Vet/Spec.v
theories/Vet/Proofs.v
theories/Vet/Props.v
theories/Remarks/Model.v
theories/Remarks/Spec.v
theories/Remarks/Proofs.v
theories/Remarks/Props.v
theories/Arrange/Model.v
theories/Arrange/Spec.v
theories/Arrange/Proofs.v
theories/Arrange/Props.v
theories/Settings/Model.v
theories/Settings/Spec.v
theories/Settings/Proofs.v
theories/Settings/Props.v
theories/Details/Model.v
theories/Details/Spec.v
theories/Details/Proofs.v
theories/Details/Props.v
theories/Gate/Model.v
theories/Gate/Spec.v
theories/Gate/Proofs.v
theories/Gate/Props.v
theories/Dots/Model.v
theories/Dots/Spec.v
theories/Dots/Proofs.v
theories/Dots/Props.v
theories/Splits/Model.v
theories/Splits/Spec.v
theories/Splits/Proofs.v
theories/Splits/Props.v
theories/Steady/Model.v
theories/Steady/Spec.v
theories/Steady/Proofs.v
theories/Steady/Props.v
theories/Element/Model.v
theories/Element/Spec.v
theories/Element/Proofs.v
theories/Element/Props.v
theories/Races/Model.v
theories/Races/Spec.v
theories/Races/Proofs.v
theories/Races/Props.v
theories/Raw/Model.v
theories/Raw/Spec.v
theories/Raw/Proofs.v
theories/Raw/Props.v
theories/Commas/Model.v
theories/Commas/Spec.v
theories/Commas/Proofs.v
theories/Commas/Props.v
theories/GoDoc/Model.v
theories/GoDoc/Spec.v
theories/GoDoc/Proofs.v
theories/GoDoc/Props.v
