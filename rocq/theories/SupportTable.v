(** The descriptors of svgpy/css/props.py 372-1743: name, syntax and the tokens of the initial
    value (None: no initial value), copied from the text of that list. *)
From Coq Require Import ZArith NArith List String.
From Verif Require Import PyBase PyText PyDict SupportModel.
Import ListNotations.
#[local] Open Scope string_scope.

Definition descriptors : list (string * string * option (list stok)) := [
  ("alignment-baseline", "baseline | text-bottom | alphabetic | ideographic | middle | central | mathematical | text-top | bottom | center | top", Some [KIdent (lit "baseline")]);
  ("baseline-shift", "<length-percentage> | sub | super", Some [KNum true]);
  ("clip-path", "<url> | [ [ <inset()> | <circle()> | <ellipse()> | <polygon()> ] || [ [ [ border-box | padding-box | content-box ] | margin-box ] | fill-box | stroke-box | view-box ] ] | none", Some [KIdent (lit "none")]);
  ("clip-rule", "nonzero | evenodd", Some [KIdent (lit "nonzero")]);
  ("color", "<color>", Some [KIdent (lit "black")]);
  ("color-interpolation", "auto | sRGB | linearRGB", Some [KIdent (lit "sRGB")]);
  ("color-interpolation-filters", "auto | sRGB | linearRGB", Some [KIdent (lit "linearRGB")]);
  ("color-rendering", "auto | optimizeSpeed | optimizeQuality", Some [KIdent (lit "auto")]);
  ("cursor", "[ [ <url> [ <number> <number> ]? , ]* [ auto | default | none | context-menu | help | pointer | progress | wait | cell | crosshair | text | vertical-text | alias | copy | move | no-drop | not-allowed | grab | grabbing | e-resize | n-resize | ne-resize | nw-resize | s-resize | se-resize | sw-resize | w-resize | ew-resize | ns-resize | nesw-resize | nwse-resize | col-resize | row-resize | all-scroll | zoom-in | zoom-out ] ]", Some [KIdent (lit "auto")]);
  ("cx", "<length-percentage>", Some [KNum true]);
  ("cy", "<length-percentage>", Some [KNum true]);
  ("d", "none | <string>", Some [KIdent (lit "none")]);
  ("direction", "ltr | rtl", Some [KIdent (lit "ltr")]);
  ("display", "inline | block | list-item | inline-block | table | inline-table | table-row-group | table-header-group | table-footer-group | table-row | table-column-group | table-column | table-cell | table-caption | none", Some [KIdent (lit "inline")]);
  ("dominant-baseline", "auto | text-bottom | alphabetic | ideographic | middle | central | mathematical | hanging | text-top", Some [KIdent (lit "auto")]);
  ("fill", "none | <color> | <url> [ none | <color> ]? | context-fill | context-stroke", Some [KIdent (lit "black")]);
  ("fill-opacity", "<number> | <percentage>", Some [KNum true]);
  ("fill-rule", "nonzero | evenodd", Some [KIdent (lit "nonzero")]);
  ("filter", "none | [ [ <blur()> | <brightness()> | <contrast()> | <drop-shadow()> | <grayscale()> | <hue-rotate()> | <invert()> | <opacity()> | <sepia()> | <saturate()> ] | <url> ]+", Some [KIdent (lit "none")]);
  ("flood-color", "<color>", Some [KIdent (lit "black")]);
  ("flood-opacity", "<number> | <percentage>", Some [KNum true]);
  ("font", "[ [ [ normal | italic | oblique <angle>? ] || [ normal | small-caps ] || [ [ normal | bold | <number> ] | bolder | lighter ] || [ normal | ultra-condensed | extra-condensed | condensed | semi-condensed | semi-expanded | expanded | extra-expanded | ultra-expanded ] ]? [ [ xx-small | x-small | small | medium | large | x-large | xx-large ] | [ larger | smaller ] | <length-percentage> ] [ / [ normal | <number> || <length-percentage> ] ]? [ [ <string> | [ serif | sans-serif | cursive | fantasy | monospace | system-ui | emoji | math | fangsong ] ]# ] ] | caption | icon | menu | message-box | small-caption | status-bar", Some [KIdent (lit "normal")]);
  ("font-family", "[ <string> | [ serif | sans-serif | cursive | fantasy | monospace | system-ui | emoji | math | fangsong ] ]#", Some [KIdent (lit "sans-serif")]);
  ("font-feature-settings", "normal | [ <string> [ <integer> | on | off ]? ]#", Some [KIdent (lit "normal")]);
  ("font-kerning", "auto | normal | none", Some [KIdent (lit "auto")]);
  ("font-language-override", "normal | <string>", Some [KIdent (lit "normal")]);
  ("font-max-size", "[ xx-small | x-small | small | medium | large | x-large | xx-large ] | [ larger | smaller ] | <length-percentage> | infinity ", Some [KIdent (lit "infinity")]);
  ("font-min-size", "[ xx-small | x-small | small | medium | large | x-large | xx-large ] | [ larger | smaller ] | <length-percentage>", Some [KNum true]);
  ("font-optical-sizing", "auto | none", Some [KIdent (lit "auto")]);
  ("font-palette", "normal | light | dark | <custom-ident>", Some [KIdent (lit "normal")]);
  ("font-size", "[ xx-small | x-small | small | medium | large | x-large | xx-large ] | [ larger | smaller ] | <length-percentage>", Some [KIdent (lit "medium")]);
  ("font-size-adjust", "none | <number>", Some [KIdent (lit "none")]);
  ("font-stretch", "normal | <percentage> | ultra-condensed | extra-condensed | condensed | semi-condensed | semi-expanded | expanded | extra-expanded | ultra-expanded", Some [KIdent (lit "normal")]);
  ("font-stretch-css3", "normal | ultra-condensed | extra-condensed | condensed | semi-condensed | semi-expanded | expanded | extra-expanded | ultra-expanded", Some [KIdent (lit "normal")]);
  ("font-style", "normal | italic | oblique <angle>?", Some [KIdent (lit "normal")]);
  ("font-synthesis", "none | [ weight || style || small-caps ]", Some [KIdent (lit "weight"); KIdent (lit "style"); KIdent (lit "small-caps")]);
  ("font-synthesis-small-caps", "auto | none", Some [KIdent (lit "auto")]);
  ("font-synthesis-style", "auto | none", Some [KIdent (lit "auto")]);
  ("font-synthesis-weight", "auto | none", Some [KIdent (lit "auto")]);
  ("font-variant", "normal | none | [ [ common-ligatures | no-common-ligatures ] || [ discretionary-ligatures | no-discretionary-ligatures ] || [ historical-ligatures | no-historical-ligatures ] || [ contextual | no-contextual ] || [ small-caps | all-small-caps | petite-caps | all-petite-caps | unicase | titling-caps ] || [ <stylistic(<feature-value-name>)> || historical-forms || <styleset(<feature-value-name>#)> || <character-variant(<feature-value-name>#)> || <swash(<feature-value-name>)> || <ornaments(<feature-value-name>)> || <annotation(<feature-value-name>)> ] || [ lining-nums | oldstyle-nums ] || [ proportional-nums | tabular-nums ] || [ diagonal-fractions | stacked-fractions ] || ordinal || slashed-zero || [ jis78 | jis83 | jis90 | jis04 | simplified | traditional ] || [ full-width | proportional-width ] || ruby || [ sub | super ] ]", Some [KIdent (lit "normal")]);
  ("font-variant-alternates", "normal | [ <stylistic(<feature-value-name>)> || historical-forms || <styleset(<feature-value-name>#)> || <character-variant(<feature-value-name>#)> || <swash(<feature-value-name>)> || <ornaments(<feature-value-name>)> || <annotation(<feature-value-name>)> ]", Some [KIdent (lit "normal")]);
  ("font-variant-caps", "normal | small-caps | all-small-caps | petite-caps | all-petite-caps | unicase | titling-caps", Some [KIdent (lit "normal")]);
  ("font-variant-css2", "normal | small-caps", Some [KIdent (lit "normal")]);
  ("font-variant-east-asian", "normal | [ [ jis78 | jis83 | jis90 | jis04 | simplified | traditional ] || [ full-width | proportional-width ] || ruby ]", Some [KIdent (lit "normal")]);
  ("font-variant-emoji", "auto | text | emoji | unicode", Some [KIdent (lit "auto")]);
  ("font-variant-ligatures", "normal | none | [ [ common-ligatures | no-common-ligatures ] || [ discretionary-ligatures | no-discretionary-ligatures ] || [ historical-ligatures | no-historical-ligatures ] || [ contextual | no-contextual ] ]", Some [KIdent (lit "normal")]);
  ("font-variant-numeric", "normal | [ [ lining-nums | oldstyle-nums ] || [ proportional-nums | tabular-nums ] || [ diagonal-fractions | stacked-fractions ] || ordinal || slashed-zero ]", Some [KIdent (lit "normal")]);
  ("font-variant-position", "normal | sub | super", Some [KIdent (lit "normal")]);
  ("font-variation-settings", "normal | [ <string> <number> ] #", Some [KIdent (lit "normal")]);
  ("font-weight", "[ normal | bold | <number> ] | bolder | lighter", Some [KIdent (lit "normal")]);
  ("glyph-orientation-vertical", "auto | <angle>", Some [KIdent (lit "auto")]);
  ("height", "auto | <length-percentage> | min-content | max-content | <fit-content(<length-percentage>)>", Some [KIdent (lit "auto")]);
  ("image-rendering", "auto | optimizeQuality | optimizeSpeed", Some [KIdent (lit "auto")]);
  ("inline-size", "<length-percentage> | auto", Some [KNum true]);
  ("inline-sizing", "normal | stretch", Some [KIdent (lit "normal")]);
  ("isolation", "auto | isolate", Some [KIdent (lit "auto")]);
  ("letter-spacing", "normal | <length>", Some [KIdent (lit "normal")]);
  ("line-height", "normal | <number> || <length-percentage>", Some [KIdent (lit "normal")]);
  ("line-sizing", "quirks-behavior | current-behavior | better-behavior | box-model-behavior | absolute-behavior", Some [KIdent (lit "current-behavior")]);
  ("lighting-color", "<color>", Some [KIdent (lit "white")]);
  ("marker", "none | <url>", Some [KIdent (lit "none")]);
  ("marker-end", "none | <url>", Some [KIdent (lit "none")]);
  ("marker-mid", "none | <url>", Some [KIdent (lit "none")]);
  ("marker-start", "none | <url>", Some [KIdent (lit "none")]);
  ("mask", "[ [ none | <image> | <url> ] || [ [ left | center | right | top | bottom | <length-percentage> ] | [ left | center | right | <length-percentage> ] [ top | center | bottom | <length-percentage> ] | [ center | [ left | right ] <length-percentage>? ] && [ center | [ top | bottom ] <length-percentage>? ] ] [ / [ [ <length-percentage> | auto ]{1,2} | cover | contain ] ]? || [ repeat-x | repeat-y | [ repeat | space | round | no-repeat ]{1,2} ] || [ [ [ [ border-box | padding-box | content-box ] | margin-box ] | fill-box | stroke-box | view-box ] | no-clip ] || [ [ [ [ [ border-box | padding-box | content-box ] | margin-box ] | fill-box | stroke-box | view-box ] | no-clip ] | no-clip ] || [ add | subtract | intersect | exclude ] || [ alpha | luminance | match-source ] ]#", Some [KIdent (lit "border-box")]);
  ("mask-border", "[ none | <image> ] || [ [ <number> | <percentage> ]{1,4} fill? ] [ / [ [ <length-percentage> | <number> | auto ]{1,4} ]? [ / [ <length> | <number> ]{1,4} ]? ]? || [ stretch | repeat | round | space ]{1,2} || [ luminance | alpha ]", None);
  ("mask-border-mode", "luminance | alpha", Some [KIdent (lit "alpha")]);
  ("mask-border-outset", "[ <length> | <number> ]{1,4}", Some [KNum true]);
  ("mask-border-repeat", "[ stretch | repeat | round | space ]{1,2}", Some [KIdent (lit "stretch")]);
  ("mask-border-slice", "[ <number> | <percentage> ]{1,4} fill?", Some [KNum true]);
  ("mask-border-source", "none | <image>", Some [KIdent (lit "none")]);
  ("mask-border-width", "[ <length-percentage> | <number> | auto ]{1,4}", Some [KIdent (lit "auto")]);
  ("mask-clip", "[ [ [ [ border-box | padding-box | content-box ] | margin-box ] | fill-box | stroke-box | view-box ] | no-clip ]#", Some [KIdent (lit "border-box")]);
  ("mask-composite", "[ add | subtract | intersect | exclude ]#", Some [KIdent (lit "add")]);
  ("mask-image", "[ none | <image> | <url> ]#", Some [KIdent (lit "none")]);
  ("mask-mode", "[ alpha | luminance | match-source ]#", Some [KIdent (lit "match-source")]);
  ("mask-origin", "[ [ [ border-box | padding-box | content-box ] | margin-box ] | fill-box | stroke-box | view-box ]#", Some [KIdent (lit "border-box")]);
  ("mask-position", "[ [ left | center | right | top | bottom | <length-percentage> ] | [ left | center | right | <length-percentage> ] [ top | center | bottom | <length-percentage> ] | [ center | [ left | right ] <length-percentage>? ] && [ center | [ top | bottom ] <length-percentage>? ]]#", Some [KPct; KPct]);
  ("mask-repeat", "[ repeat-x | repeat-y | [ repeat | space | round | no-repeat ]{1,2} ]#", Some [KIdent (lit "repeat")]);
  ("mask-size", "[ [ <length-percentage> | auto ]{1,2} | cover | contain ]#", Some [KIdent (lit "auto")]);
  ("mask-type", "luminance | alpha", Some [KIdent (lit "luminance")]);
  ("max-height", "none | <length-percentage> | min-content | max-content | <fit-content(<length-percentage>)>", Some [KIdent (lit "none")]);
  ("max-width", "none | <length-percentage> | min-content | max-content | <fit-content(<length-percentage>)>", Some [KIdent (lit "none")]);
  ("min-height", "auto | <length-percentage> | min-content | max-content | <fit-content(<length-percentage>)>", Some [KIdent (lit "auto")]);
  ("min-width", "auto | <length-percentage> | min-content | max-content | <fit-content(<length-percentage>)>", Some [KIdent (lit "auto")]);
  ("opacity", "<number> | <percentage>", Some [KNum true]);
  ("overflow", "[ visible | hidden | clip | scroll | auto ]{1,2}", Some [KIdent (lit "visible")]);
  ("overflow-x", "visible | hidden | clip | scroll | auto", Some [KIdent (lit "visible")]);
  ("overflow-y", "visible | hidden | clip | scroll | auto", Some [KIdent (lit "visible")]);
  ("paint-order", "normal | [ fill || stroke || markers ]", Some [KIdent (lit "normal")]);
  ("pointer-events", "auto | bounding-box | visiblePainted | visibleFill | visibleStroke | visible | painted | fill | stroke | all | none", Some [KIdent (lit "auto")]);
  ("r", "<length-percentage>", Some [KNum true]);
  ("rx", "<length-percentage> | auto", Some [KIdent (lit "auto")]);
  ("ry", "<length-percentage> | auto", Some [KIdent (lit "auto")]);
  ("shape-image-threshold", "<number>", Some [KNum false]);
  ("shape-inside", "auto | [ [ <inset()> | <circle()> | <ellipse()> | <polygon()> ] | <url> ]+", Some [KIdent (lit "auto")]);
  ("shape-margin", "<length-percentage>", Some [KNum true]);
  ("shape-padding", "<length>", Some [KNum true]);
  ("shape-rendering", "auto | optimizeSpeed | crispEdges | geometricPrecision", Some [KIdent (lit "auto")]);
  ("shape-subtract", "none | [ [ <inset()> | <circle()> | <ellipse()> | <polygon()> ] | <url> ]+", Some [KIdent (lit "none")]);
  ("stop-color", "currentColor | <color> <icc-color()>", Some [KIdent (lit "black")]);
  ("stop-opacity", "<number> | <percentage>", Some [KNum true]);
  ("stroke", "none | <color> | <url> [none | <color>]? | context-fill | context-stroke", Some [KIdent (lit "none")]);
  ("stroke-dasharray", "none | [ <length-percentage> | <number> ]#*", Some [KIdent (lit "none")]);
  ("stroke-dashoffset", "<length-percentage>", Some [KNum true]);
  ("stroke-linecap", "butt | round | square", Some [KIdent (lit "butt")]);
  ("stroke-linejoin", "miter | miter-clip | round | bevel | arcs", Some [KIdent (lit "miter")]);
  ("stroke-miterlimit", "<number>", Some [KNum true]);
  ("stroke-opacity", "<number> | <percentage>", Some [KNum true]);
  ("stroke-width", "<length-percentage>", Some [KNum true]);
  ("text-align", "[ start | end | left | right | center | justify | match-parent | justify-all ] || <string>", Some [KIdent (lit "start")]);
  ("text-align-all", "start | end | left | right | center | justify | match-parent", Some [KIdent (lit "start")]);
  ("text-align-last", "auto | start | end | left | right | center | justify | match-parent", Some [KIdent (lit "auto")]);
  ("text-anchor", "start | middle | end", Some [KIdent (lit "start")]);
  ("text-decoration", "[ none | [ underline || overline || line-through || blink ] | spelling-error | grammar-error ] || [ solid | double | dotted | dashed | wavy ] || <color>", None);
  ("text-decoration-color", "<color>", Some [KIdent (lit "currentcolor")]);
  ("text-decoration-fill", "none | <color> | <url> [ none | <color> ]? | context-fill | context-stroke", None);
  ("text-decoration-line", "none | [ underline || overline || line-through || blink ] | spelling-error | grammar-error", Some [KIdent (lit "none")]);
  ("text-decoration-stroke", "none | <color> | <url> [ none | <color> ]? | context-fill | context-stroke", None);
  ("text-decoration-style", "solid | double | dotted | dashed | wavy", Some [KIdent (lit "solid")]);
  ("text-decoration-width", "auto | from-font | <length>", Some [KIdent (lit "auto")]);
  ("text-indent", "[ <length-percentage> ] && hanging? && each-line?", Some [KNum true]);
  ("text-orientation", "mixed | upright | sideways", Some [KIdent (lit "mixed")]);
  ("text-overflow", "[ clip | ellipsis | <string> | fade | <fade()> ]{1,2}", Some [KIdent (lit "clip")]);
  ("text-rendering", "auto | optimizeSpeed | optimizeLegibility | geometricPrecision", Some [KIdent (lit "auto")]);
  ("text-space-collapse", "collapse | discard | preserve | preserve-breaks | preserve-spaces", Some [KIdent (lit "collapse")]);
  ("text-space-trim", "none | trim-inner || discard-before || discard-after", Some [KIdent (lit "none")]);
  ("text-wrap", "wrap | nowrap | balance", Some [KIdent (lit "wrap")]);
  ("unicode-bidi", "normal | embed | isolate | bidi-override | isolate-override | plaintext", Some [KIdent (lit "normal")]);
  ("vector-effect", "none | [ non-scaling-stroke | non-scaling-size | non-rotation | fixed-position ]+ [ viewport | screen ]?", Some [KIdent (lit "none")]);
  ("vertical-align", "[ <length-percentage> | sub | super ] || [ baseline | text-bottom | alphabetic | ideographic | middle | central | mathematical | text-top | bottom | center | top ]", Some [KIdent (lit "baseline")]);
  ("visibility", "visible | hidden | collapse", Some [KIdent (lit "visible")]);
  ("white-space", "normal | pre | nowrap | pre-wrap | pre-line", Some [KIdent (lit "normal")]);
  ("width", "auto | <length-percentage> | min-content | max-content | <fit-content(<length-percentage>)>", Some [KIdent (lit "auto")]);
  ("will-change", "auto | [ scroll-position | contents | <custom-ident> ]#", Some [KIdent (lit "auto")]);
  ("word-spacing", "normal | <length-percentage>", Some [KIdent (lit "normal")]);
  ("writing-mode", "horizontal-tb | vertical-rl | vertical-lr | sideways-rl | sideways-lr | lr | lr-tb | rl | rl-tb | tb | tb-rl", Some [KIdent (lit "horizontal-tb")]);
  ("x", "<length-percentage>", Some [KNum true]);
  ("x1", "<length-percentage> | <number>", Some [KNum true]);
  ("x2", "<length-percentage> | <number>", Some [KNum true]);
  ("y", "<length-percentage>", Some [KNum true]);
  ("y1", "<length-percentage> | <number>", Some [KNum true]);
  ("y2", "<length-percentage> | <number>", Some [KNum true])].
(* 1745 *)
Definition css_property_descriptor_map : dict descr :=
  fold_left (fun m (r : string * string * option (list stok)) => dset m (lit (fst (fst r))) (descriptor (lit (snd (fst r))))) descriptors [].
